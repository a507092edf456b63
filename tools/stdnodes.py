"""Write rocq/theories/StdNodes.v: the field declarations of the standard node
types, taken from the text of vrml/vrml97/basenodes.py."""
import ast, math, sys
src = open('/repo/vrml/vrml97/basenodes.py').read()
tree = ast.parse(src)

def fl(x):
    if x == 0: return 'S754_zero %s' % ('true' if math.copysign(1, x) < 0 else 'false')
    m, e = math.frexp(abs(x)); m = int(m * 2**53); e -= 53
    return 'S754_finite %s %d %s' % ('true' if x < 0 else 'false', m, '(%d)' % e if e < 0 else e)
def pv(n):
    v = ast.literal_eval(n)
    return val(v)
def val(v):
    if isinstance(v, bool): return 'PBool %s' % str(v).lower()
    if isinstance(v, int): return 'PInt (%d)' % v
    if isinstance(v, float): return 'PFloat (%s)' % fl(v)
    if isinstance(v, str): return 'PStr (lit "%s")' % v
    if isinstance(v, list): return 'PSeq KList [%s]' % '; '.join(val(x) for x in v)
    raise ValueError(v)
rows = []; skipped = []
for c in tree.body:
    if not isinstance(c, ast.ClassDef): continue
    proto = None; fields = []; ok = True
    for s in c.body:
        if not (isinstance(s, ast.Assign) and isinstance(s.targets[0], ast.Name)): continue
        t = s.targets[0].id
        if t == 'PROTO': proto = s.value.value
        if isinstance(s.value, ast.Call) and isinstance(s.value.func, ast.Attribute) and s.value.func.attr == 'newField':
            a = s.value.args
            name, ty = a[0].value, a[1].value
            d = a[3] if len(a) > 3 else None
            assert name == t, (name, t)
            if ty == 'SFNode': k = 'KNode'; assert ast.unparse(d) == 'node.NULL'
            elif ty == 'MFNode': k = 'KNodes false'; assert ast.unparse(d) == 'list'
            else:
                if ty == 'SFImage': ty = 'MFUInt32'
                dv = 'PSeq KList []' if isinstance(d, ast.Name) and d.id == 'list' else pv(d)
                k = 'KVal %s (%s)' % (ty, dv)
            fields.append((name, k, s.lineno))
    if proto is None: continue
    if not ok: skipped.append(proto); continue
    fields.append(('externalURL', 'KVal MFString (PSeq KList [])', None))
    rows.append((proto, c.lineno, c.end_lineno, fields))
out = ['''(** The standard VRML97 node types.  Written by tools/stdnodes.py from the text
    of vrml/vrml97/basenodes.py; [externalURL] is declared for every node in
    vrml/node.py 51.  An SFImage is stored, written and read as an MFUInt32
    (fieldtypes.py 428-443, parseprocessor.py 405).  Events are left out: they
    are not written. *)
From Coq Require Import SpecFloat.
From Verif Require Import Base Text Float Coerce_Model VrmlStr_Model Scene_Model.
Local Open Scope Z_scope.
Local Open Scope list_scope.
''']
names = []
for proto, a, b, fields in rows:
    out.append('(** basenodes.py %d-%d *)' % (a, b))
    out.append('Definition %s_decl : list fdecl :=\n  [%s].' % (proto, ';\n   '.join('mkfd (lit "%s") (%s)' % (n, k) for n, k, _ in fields)))
    names.append('(lit "%s", %s_decl)' % (proto, proto))
out.append('Definition std_protos : list (text * list fdecl) :=\n  [%s].' % ';\n   '.join(names))
open('/verif/rocq/theories/StdNodes.v', 'w').write('\n'.join(out) + '\n')
print(len(rows), 'types', sum(len(r[3]) for r in rows), 'fields; skipped', skipped)
