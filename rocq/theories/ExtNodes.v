(** The node types of the NURBS and shader extensions.  Written by
    tools/extnodes.py from the text of vrml/vrml97/nurbs.py and shaders.py;
    [externalURL] is declared for every node in vrml/node.py 51.  Left out:
    ShaderGeometry (appearance has the default list);
    ShaderSlice (no PROTO);
    ShaderAttribute (no PROTO);
    ShaderBuffer (no PROTO);
    ShaderIndexBuffer (no PROTO);
    FloatUniform (no PROTO). *)
From Coq Require Import SpecFloat.
From Verif Require Import Base Text Float Coerce_Model VrmlStr_Model Scene_Model.
Local Open Scope Z_scope.
Local Open Scope list_scope.

(** nurbs.py 13-20 *)
Definition Contour2D_decl : list fdecl :=
  [mkfd (lit "children") (KNodes false);
   mkfd (lit "externalURL") (KVal MFString (PSeq KList []))].
(** nurbs.py 22-25 *)
Definition Polyline2D_decl : list fdecl :=
  [mkfd (lit "point") (KVal MFVec2f (PSeq KList []));
   mkfd (lit "externalURL") (KVal MFString (PSeq KList []))].
(** nurbs.py 26-33 *)
Definition NurbsCurve2D_decl : list fdecl :=
  [mkfd (lit "knot") (KVal MFFloat32 (PSeq KList []));
   mkfd (lit "order") (KVal SFInt32 (PInt (3)));
   mkfd (lit "controlPoint") (KVal MFVec2f (PSeq KList []));
   mkfd (lit "weight") (KVal MFFloat32 (PSeq KList []));
   mkfd (lit "tessellation") (KVal SFInt32 (PInt (0)));
   mkfd (lit "externalURL") (KVal MFString (PSeq KList []))].
(** nurbs.py 36-45 *)
Definition NurbsCurve_decl : list fdecl :=
  [mkfd (lit "knot") (KVal MFFloat32 (PSeq KList []));
   mkfd (lit "order") (KVal SFInt32 (PInt (3)));
   mkfd (lit "controlPoint") (KVal MFVec3f (PSeq KList []));
   mkfd (lit "color") (KVal MFColor (PSeq KList []));
   mkfd (lit "weight") (KVal MFFloat32 (PSeq KList []));
   mkfd (lit "tessellation") (KVal SFInt32 (PInt (0)));
   mkfd (lit "externalURL") (KVal MFString (PSeq KList []))].
(** nurbs.py 47-63 *)
Definition NurbsSurface_decl : list fdecl :=
  [mkfd (lit "uDimension") (KVal SFInt32 (PInt (0)));
   mkfd (lit "vDimension") (KVal SFInt32 (PInt (0)));
   mkfd (lit "uKnot") (KVal MFFloat32 (PSeq KList []));
   mkfd (lit "vKnot") (KVal MFFloat32 (PSeq KList []));
   mkfd (lit "uOrder") (KVal SFInt32 (PInt (3)));
   mkfd (lit "vOrder") (KVal SFInt32 (PInt (3)));
   mkfd (lit "controlPoint") (KVal MFVec3f (PSeq KList []));
   mkfd (lit "color") (KVal MFColor (PSeq KList []));
   mkfd (lit "weight") (KVal MFFloat32 (PSeq KList []));
   mkfd (lit "uTessellation") (KVal SFInt32 (PInt (0)));
   mkfd (lit "vTessellation") (KVal SFInt32 (PInt (0)));
   mkfd (lit "texCoord") (KNode);
   mkfd (lit "solid") (KVal SFBool (PInt (1)));
   mkfd (lit "ccw") (KVal SFBool (PInt (1)));
   mkfd (lit "externalURL") (KVal MFString (PSeq KList []))].
(** nurbs.py 65-69 *)
Definition TrimmedSurface_decl : list fdecl :=
  [mkfd (lit "trimmingContour") (KNodes false);
   mkfd (lit "surface") (KNode);
   mkfd (lit "externalURL") (KVal MFString (PSeq KList []))].
(** nurbs.py 72-78 *)
Definition NurbsGroup_decl : list fdecl :=
  [mkfd (lit "children") (KNodes false);
   mkfd (lit "tessellationScale") (KVal SFFloat (PFloat (S754_finite false 4503599627370496 (-52))));
   mkfd (lit "bboxSize") (KVal SFVec3f (PSeq KList [PFloat (S754_finite true 4503599627370496 (-52)); PFloat (S754_finite true 4503599627370496 (-52)); PFloat (S754_finite true 4503599627370496 (-52))]));
   mkfd (lit "bboxCenter") (KVal SFVec3f (PSeq KList [PFloat (S754_zero false); PFloat (S754_zero false); PFloat (S754_zero false)]));
   mkfd (lit "externalURL") (KVal MFString (PSeq KList []))].
(** shaders.py 70-76 *)
Definition IntUniform_decl : list fdecl :=
  [mkfd (lit "name") (KVal SFString (PStr (lit "")));
   mkfd (lit "value") (KVal MFInt32 (PSeq KList []));
   mkfd (lit "externalURL") (KVal MFString (PSeq KList []))].
(** shaders.py 78-82 *)
Definition TextureUniform_decl : list fdecl :=
  [mkfd (lit "name") (KVal SFString (PStr (lit "")));
   mkfd (lit "value") (KNode);
   mkfd (lit "externalURL") (KVal MFString (PSeq KList []))].
(** shaders.py 83-88 *)
Definition TextureBufferUniform_decl : list fdecl :=
  [mkfd (lit "name") (KVal SFString (PStr (lit "")));
   mkfd (lit "value") (KNode);
   mkfd (lit "format") (KVal SFString (PStr (lit "RGBA32F")));
   mkfd (lit "externalURL") (KVal MFString (PSeq KList []))].
(** shaders.py 90-97 *)
Definition GLSLShader_decl : list fdecl :=
  [mkfd (lit "url") (KVal MFString (PSeq KList []));
   mkfd (lit "source") (KVal MFString (PSeq KList []));
   mkfd (lit "imports") (KNodes false);
   mkfd (lit "type") (KVal SFString (PStr (lit "VERTEX")));
   mkfd (lit "externalURL") (KVal MFString (PSeq KList []))].
(** shaders.py 99-103 *)
Definition GLSLImport_decl : list fdecl :=
  [mkfd (lit "url") (KVal MFString (PSeq KList []));
   mkfd (lit "source") (KVal MFString (PSeq KList []));
   mkfd (lit "externalURL") (KVal MFString (PSeq KList []))].
(** shaders.py 105-113 *)
Definition GLSLObject_decl : list fdecl :=
  [mkfd (lit "role") (KVal SFString (PStr (lit "VISIBLE")));
   mkfd (lit "uniforms") (KNodes false);
   mkfd (lit "shaders") (KNodes false);
   mkfd (lit "textures") (KNodes false);
   mkfd (lit "externalURL") (KVal MFString (PSeq KList []))].
(** shaders.py 115-122 *)
Definition Shader_decl : list fdecl :=
  [mkfd (lit "material") (KNode);
   mkfd (lit "objects") (KNodes false);
   mkfd (lit "implementation") (KNode);
   mkfd (lit "externalURL") (KVal MFString (PSeq KList []))].
Definition nurbs_protos : list (text * list fdecl) :=
  [(lit "Contour2D", Contour2D_decl);
   (lit "Polyline2D", Polyline2D_decl);
   (lit "NurbsCurve2D", NurbsCurve2D_decl);
   (lit "NurbsCurve", NurbsCurve_decl);
   (lit "NurbsSurface", NurbsSurface_decl);
   (lit "TrimmedSurface", TrimmedSurface_decl);
   (lit "NurbsGroup", NurbsGroup_decl)].
Definition shader_protos : list (text * list fdecl) :=
  [(lit "IntUniform", IntUniform_decl);
   (lit "TextureUniform", TextureUniform_decl);
   (lit "TextureBufferUniform", TextureBufferUniform_decl);
   (lit "GLSLShader", GLSLShader_decl);
   (lit "GLSLImport", GLSLImport_decl);
   (lit "GLSLObject", GLSLObject_decl);
   (lit "Shader", Shader_decl)].
