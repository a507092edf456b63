"""Write ExtNodes.v: the field declarations of the node types of the NURBS and
shader extensions, taken from the text of vrml/vrml97/nurbs.py and shaders.py."""
import ast, math, sys
OUT = sys.argv[1] if len(sys.argv) > 1 else '/verif/rocq/theories/ExtNodes.v'
KNOWN = {'SFBool', 'SFInt32', 'SFFloat', 'SFString', 'SFVec3f', 'MFInt32', 'MFFloat32', 'MFVec2f', 'MFVec3f', 'MFColor', 'MFString'}

def fl(x):
    if x == 0: return 'S754_zero %s' % ('true' if math.copysign(1, x) < 0 else 'false')
    m, e = math.frexp(abs(x)); m = int(m * 2**53); e -= 53
    return 'S754_finite %s %d %s' % ('true' if x < 0 else 'false', m, '(%d)' % e if e < 0 else e)
def val(v):
    if isinstance(v, bool): return 'PBool %s' % str(v).lower()
    if isinstance(v, int): return 'PInt (%d)' % v
    if isinstance(v, float): return 'PFloat (%s)' % fl(v)
    if isinstance(v, str): return 'PStr (lit "%s")' % v
    if isinstance(v, list): return 'PSeq KList [%s]' % '; '.join(val(x) for x in v)
    raise ValueError(v)
rows = []; skipped = []
for mod in ('nurbs', 'shaders'):
    for c in ast.parse(open('/repo/vrml/vrml97/%s.py' % mod).read()).body:
        if not isinstance(c, ast.ClassDef): continue
        proto = None; fields = []; why = None
        for s in c.body:
            if not (isinstance(s, ast.Assign) and isinstance(s.targets[0], ast.Name)): continue
            t = s.targets[0].id
            if t == 'PROTO': proto = s.value.value
            if isinstance(s.value, ast.Call) and isinstance(s.value.func, ast.Attribute) and s.value.func.attr == 'newField':
                a = s.value.args
                name, ty, d = a[0].value, a[1].value, ast.unparse(a[3])
                assert name == t, (name, t)
                if ty == 'SFNode':
                    k = 'KNode'
                    if d != 'node.NULL': why = '%s has the default %s' % (name, d)
                elif ty == 'MFNode': k = 'KNodes false'; assert d == 'list'
                elif ty not in KNOWN: why = '%s is an %s' % (name, ty); continue
                else: k = 'KVal %s (%s)' % (ty, 'PSeq KList []' if d == 'list' else val(ast.literal_eval(a[3])))
                fields.append((name, k))
        if proto is None: why = 'no PROTO'
        if why: skipped.append((mod, c.name, why)); continue
        fields.append(('externalURL', 'KVal MFString (PSeq KList [])'))
        rows.append((mod, proto, c.lineno, c.end_lineno, fields))
out = ['''(** The node types of the NURBS and shader extensions.  Written by
    tools/extnodes.py from the text of vrml/vrml97/nurbs.py and shaders.py;
    [externalURL] is declared for every node in vrml/node.py 51.  Left out:
%s. *)
From Coq Require Import SpecFloat.
From Verif Require Import Base Text Float Coerce_Model VrmlStr_Model Scene_Model.
Local Open Scope Z_scope.
Local Open Scope list_scope.
''' % ';\n'.join('    %s (%s)' % (n, w) for _, n, w in skipped)]
for mod, proto, a, b, fields in rows:
    out.append('(** %s.py %d-%d *)' % (mod, a, b))
    out.append('Definition %s_decl : list fdecl :=\n  [%s].' % (proto, ';\n   '.join('mkfd (lit "%s") (%s)' % f for f in fields)))
for mod in ('nurbs', 'shaders'):
    out.append('Definition %s_protos : list (text * list fdecl) :=\n  [%s].' % (mod[:-1] if mod == 'shaders' else mod, ';\n   '.join('(lit "%s", %s_decl)' % (r[1], r[1]) for r in rows if r[0] == mod)))
open(OUT, 'w').write('\n'.join(out) + '\n')
print(len(rows), 'types', sum(len(r[4]) for r in rows), 'fields; skipped', skipped)
