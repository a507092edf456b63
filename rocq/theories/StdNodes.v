(** The standard VRML97 node types.  Written by tools/stdnodes.py from the text
    of vrml/vrml97/basenodes.py; [externalURL] is declared for every node in
    vrml/node.py 51.  An SFImage is stored, written and read as an MFUInt32
    (fieldtypes.py 428-443, parseprocessor.py 405).  Events are left out: they
    are not written. *)
From Coq Require Import SpecFloat.
From Verif Require Import Base Text Float Coerce_Model VrmlStr_Model Scene_Model.
Local Open Scope Z_scope.
Local Open Scope list_scope.

(** basenodes.py 4-15 *)
Definition Anchor_decl : list fdecl :=
  [mkfd (lit "url") (KVal MFString (PSeq KList []));
   mkfd (lit "description") (KVal SFString (PStr (lit "")));
   mkfd (lit "bboxCenter") (KVal SFVec3f (PSeq KList [PFloat (S754_zero false); PFloat (S754_zero false); PFloat (S754_zero false)]));
   mkfd (lit "parameter") (KVal MFString (PSeq KList []));
   mkfd (lit "children") (KNodes false);
   mkfd (lit "bboxSize") (KVal SFVec3f (PSeq KList [PFloat (S754_finite true 4503599627370496 (-52)); PFloat (S754_finite true 4503599627370496 (-52)); PFloat (S754_finite true 4503599627370496 (-52))]));
   mkfd (lit "externalURL") (KVal MFString (PSeq KList []))].
(** basenodes.py 17-22 *)
Definition Appearance_decl : list fdecl :=
  [mkfd (lit "material") (KNode);
   mkfd (lit "texture") (KNode);
   mkfd (lit "textureTransform") (KNode);
   mkfd (lit "externalURL") (KVal MFString (PSeq KList []))].
(** basenodes.py 26-37 *)
Definition AudioClip_decl : list fdecl :=
  [mkfd (lit "stopTime") (KVal SFTime (PFloat (S754_zero false)));
   mkfd (lit "description") (KVal SFString (PStr (lit "")));
   mkfd (lit "startTime") (KVal SFTime (PFloat (S754_zero false)));
   mkfd (lit "pitch") (KVal SFFloat (PFloat (S754_finite false 4503599627370496 (-52))));
   mkfd (lit "url") (KVal MFString (PSeq KList []));
   mkfd (lit "loop") (KVal SFBool (PInt (0)));
   mkfd (lit "externalURL") (KVal MFString (PSeq KList []))].
(** basenodes.py 39-54 *)
Definition Background_decl : list fdecl :=
  [mkfd (lit "groundAngle") (KVal MFFloat (PSeq KList []));
   mkfd (lit "rightUrl") (KVal MFString (PSeq KList []));
   mkfd (lit "topUrl") (KVal MFString (PSeq KList []));
   mkfd (lit "backUrl") (KVal MFString (PSeq KList []));
   mkfd (lit "groundColor") (KVal MFColor (PSeq KList []));
   mkfd (lit "leftUrl") (KVal MFString (PSeq KList []));
   mkfd (lit "frontUrl") (KVal MFString (PSeq KList []));
   mkfd (lit "bottomUrl") (KVal MFString (PSeq KList []));
   mkfd (lit "skyColor") (KVal MFColor (PSeq KList [PSeq KList [PFloat (S754_zero false); PFloat (S754_zero false); PFloat (S754_zero false)]]));
   mkfd (lit "skyAngle") (KVal MFFloat (PSeq KList []));
   mkfd (lit "externalURL") (KVal MFString (PSeq KList []))].
(** basenodes.py 56-65 *)
Definition Billboard_decl : list fdecl :=
  [mkfd (lit "bboxCenter") (KVal SFVec3f (PSeq KList [PFloat (S754_zero false); PFloat (S754_zero false); PFloat (S754_zero false)]));
   mkfd (lit "axisOfRotation") (KVal SFVec3f (PSeq KList [PFloat (S754_zero false); PFloat (S754_finite false 4503599627370496 (-52)); PFloat (S754_zero false)]));
   mkfd (lit "children") (KNodes false);
   mkfd (lit "bboxSize") (KVal SFVec3f (PSeq KList [PFloat (S754_finite true 4503599627370496 (-52)); PFloat (S754_finite true 4503599627370496 (-52)); PFloat (S754_finite true 4503599627370496 (-52))]));
   mkfd (lit "externalURL") (KVal MFString (PSeq KList []))].
(** basenodes.py 67-70 *)
Definition Box_decl : list fdecl :=
  [mkfd (lit "size") (KVal SFVec3f (PSeq KList [PFloat (S754_finite false 4503599627370496 (-51)); PFloat (S754_finite false 4503599627370496 (-51)); PFloat (S754_finite false 4503599627370496 (-51))]));
   mkfd (lit "externalURL") (KVal MFString (PSeq KList []))].
(** basenodes.py 74-85 *)
Definition Collision_decl : list fdecl :=
  [mkfd (lit "bboxCenter") (KVal SFVec3f (PSeq KList [PFloat (S754_zero false); PFloat (S754_zero false); PFloat (S754_zero false)]));
   mkfd (lit "collide") (KVal SFBool (PInt (1)));
   mkfd (lit "proxy") (KNode);
   mkfd (lit "bboxSize") (KVal SFVec3f (PSeq KList [PFloat (S754_finite true 4503599627370496 (-52)); PFloat (S754_finite true 4503599627370496 (-52)); PFloat (S754_finite true 4503599627370496 (-52))]));
   mkfd (lit "children") (KNodes false);
   mkfd (lit "externalURL") (KVal MFString (PSeq KList []))].
(** basenodes.py 87-90 *)
Definition Color_decl : list fdecl :=
  [mkfd (lit "color") (KVal MFColor (PSeq KList []));
   mkfd (lit "externalURL") (KVal MFString (PSeq KList []))].
(** basenodes.py 94-101 *)
Definition ColorInterpolator_decl : list fdecl :=
  [mkfd (lit "keyValue") (KVal MFColor (PSeq KList []));
   mkfd (lit "key") (KVal MFFloat (PSeq KList []));
   mkfd (lit "externalURL") (KVal MFString (PSeq KList []))].
(** basenodes.py 103-109 *)
Definition Cone_decl : list fdecl :=
  [mkfd (lit "bottom") (KVal SFBool (PInt (1)));
   mkfd (lit "side") (KVal SFBool (PInt (1)));
   mkfd (lit "bottomRadius") (KVal SFFloat (PFloat (S754_finite false 4503599627370496 (-52))));
   mkfd (lit "height") (KVal SFFloat (PFloat (S754_finite false 4503599627370496 (-51))));
   mkfd (lit "externalURL") (KVal MFString (PSeq KList []))].
(** basenodes.py 113-116 *)
Definition Coordinate_decl : list fdecl :=
  [mkfd (lit "point") (KVal MFVec3f (PSeq KList []));
   mkfd (lit "externalURL") (KVal MFString (PSeq KList []))].
(** basenodes.py 120-127 *)
Definition CoordinateInterpolator_decl : list fdecl :=
  [mkfd (lit "keyValue") (KVal MFVec3f (PSeq KList []));
   mkfd (lit "key") (KVal MFFloat (PSeq KList []));
   mkfd (lit "externalURL") (KVal MFString (PSeq KList []))].
(** basenodes.py 129-136 *)
Definition Cylinder_decl : list fdecl :=
  [mkfd (lit "top") (KVal SFBool (PInt (1)));
   mkfd (lit "bottom") (KVal SFBool (PInt (1)));
   mkfd (lit "radius") (KVal SFFloat (PFloat (S754_finite false 4503599627370496 (-52))));
   mkfd (lit "side") (KVal SFBool (PInt (1)));
   mkfd (lit "height") (KVal SFFloat (PFloat (S754_finite false 4503599627370496 (-51))));
   mkfd (lit "externalURL") (KVal MFString (PSeq KList []))].
(** basenodes.py 140-152 *)
Definition CylinderSensor_decl : list fdecl :=
  [mkfd (lit "minAngle") (KVal SFFloat (PFloat (S754_zero false)));
   mkfd (lit "offset") (KVal SFFloat (PFloat (S754_zero false)));
   mkfd (lit "diskAngle") (KVal SFFloat (PFloat (S754_finite false 4719772409484280 (-54))));
   mkfd (lit "enabled") (KVal SFBool (PInt (1)));
   mkfd (lit "autoOffset") (KVal SFBool (PInt (1)));
   mkfd (lit "maxAngle") (KVal SFFloat (PFloat (S754_finite true 4503599627370496 (-52))));
   mkfd (lit "externalURL") (KVal MFString (PSeq KList []))].
(** basenodes.py 154-161 *)
Definition DirectionalLight_decl : list fdecl :=
  [mkfd (lit "color") (KVal SFColor (PSeq KList [PFloat (S754_finite false 4503599627370496 (-52)); PFloat (S754_finite false 4503599627370496 (-52)); PFloat (S754_finite false 4503599627370496 (-52))]));
   mkfd (lit "on") (KVal SFBool (PInt (1)));
   mkfd (lit "intensity") (KVal SFFloat (PFloat (S754_finite false 4503599627370496 (-52))));
   mkfd (lit "ambientIntensity") (KVal SFFloat (PFloat (S754_zero false)));
   mkfd (lit "direction") (KVal SFVec3f (PSeq KList [PFloat (S754_zero false); PFloat (S754_zero false); PFloat (S754_finite true 4503599627370496 (-52))]));
   mkfd (lit "externalURL") (KVal MFString (PSeq KList []))].
(** basenodes.py 165-182 *)
Definition ElevationGrid_decl : list fdecl :=
  [mkfd (lit "zDimension") (KVal SFInt32 (PInt (0)));
   mkfd (lit "xSpacing") (KVal SFFloat (PFloat (S754_zero false)));
   mkfd (lit "creaseAngle") (KVal SFFloat (PFloat (S754_zero false)));
   mkfd (lit "normal") (KNode);
   mkfd (lit "solid") (KVal SFBool (PInt (1)));
   mkfd (lit "ccw") (KVal SFBool (PInt (1)));
   mkfd (lit "texCoord") (KNode);
   mkfd (lit "height") (KVal MFFloat (PSeq KList []));
   mkfd (lit "color") (KNode);
   mkfd (lit "colorPerVertex") (KVal SFBool (PInt (1)));
   mkfd (lit "xDimension") (KVal SFInt32 (PInt (0)));
   mkfd (lit "zSpacing") (KVal SFFloat (PFloat (S754_zero false)));
   mkfd (lit "normalPerVertex") (KVal SFBool (PInt (1)));
   mkfd (lit "externalURL") (KVal MFString (PSeq KList []))].
(** basenodes.py 184-201 *)
Definition Extrusion_decl : list fdecl :=
  [mkfd (lit "beginCap") (KVal SFBool (PInt (1)));
   mkfd (lit "scale") (KVal MFVec2f (PSeq KList [PSeq KList [PFloat (S754_finite false 4503599627370496 (-52)); PFloat (S754_finite false 4503599627370496 (-52))]]));
   mkfd (lit "creaseAngle") (KVal SFFloat (PFloat (S754_zero false)));
   mkfd (lit "convex") (KVal SFBool (PInt (1)));
   mkfd (lit "spine") (KVal MFVec3f (PSeq KList [PSeq KList [PFloat (S754_zero false); PFloat (S754_zero false); PFloat (S754_zero false)]; PSeq KList [PFloat (S754_zero false); PFloat (S754_finite false 4503599627370496 (-52)); PFloat (S754_zero false)]]));
   mkfd (lit "crossSection") (KVal MFVec2f (PSeq KList [PSeq KList [PFloat (S754_finite false 4503599627370496 (-52)); PFloat (S754_finite false 4503599627370496 (-52))]; PSeq KList [PFloat (S754_finite false 4503599627370496 (-52)); PFloat (S754_finite true 4503599627370496 (-52))]; PSeq KList [PFloat (S754_finite true 4503599627370496 (-52)); PFloat (S754_finite true 4503599627370496 (-52))]; PSeq KList [PFloat (S754_finite true 4503599627370496 (-52)); PFloat (S754_finite false 4503599627370496 (-52))]; PSeq KList [PFloat (S754_finite false 4503599627370496 (-52)); PFloat (S754_finite false 4503599627370496 (-52))]]));
   mkfd (lit "ccw") (KVal SFBool (PInt (1)));
   mkfd (lit "solid") (KVal SFBool (PInt (1)));
   mkfd (lit "endCap") (KVal SFBool (PInt (1)));
   mkfd (lit "orientation") (KVal MFRotation (PSeq KList [PSeq KList [PFloat (S754_zero false); PFloat (S754_zero false); PFloat (S754_finite false 4503599627370496 (-52)); PFloat (S754_zero false)]]));
   mkfd (lit "externalURL") (KVal MFString (PSeq KList []))].
(** basenodes.py 203-211 *)
Definition Fog_decl : list fdecl :=
  [mkfd (lit "color") (KVal SFColor (PSeq KList [PFloat (S754_finite false 4503599627370496 (-52)); PFloat (S754_finite false 4503599627370496 (-52)); PFloat (S754_finite false 4503599627370496 (-52))]));
   mkfd (lit "visibilityRange") (KVal SFFloat (PFloat (S754_zero false)));
   mkfd (lit "fogType") (KVal SFString (PStr (lit "LINEAR")));
   mkfd (lit "externalURL") (KVal MFString (PSeq KList []))].
(** basenodes.py 213-224 *)
Definition FontStyle_decl : list fdecl :=
  [mkfd (lit "style") (KVal SFString (PStr (lit "PLAIN")));
   mkfd (lit "topToBottom") (KVal SFBool (PInt (1)));
   mkfd (lit "family") (KVal MFString (PStr (lit "SERIF")));
   mkfd (lit "language") (KVal SFString (PStr (lit "")));
   mkfd (lit "horizontal") (KVal SFBool (PInt (1)));
   mkfd (lit "justify") (KVal MFString (PSeq KList [PStr (lit "BEGIN")]));
   mkfd (lit "spacing") (KVal SFFloat (PFloat (S754_finite false 4503599627370496 (-52))));
   mkfd (lit "leftToRight") (KVal SFBool (PInt (1)));
   mkfd (lit "size") (KVal SFFloat (PFloat (S754_finite false 4503599627370496 (-52))));
   mkfd (lit "externalURL") (KVal MFString (PSeq KList []))].
(** basenodes.py 229-237 *)
Definition Group_decl : list fdecl :=
  [mkfd (lit "bboxCenter") (KVal SFVec3f (PSeq KList [PFloat (S754_zero false); PFloat (S754_zero false); PFloat (S754_zero false)]));
   mkfd (lit "children") (KNodes false);
   mkfd (lit "bboxSize") (KVal SFVec3f (PSeq KList [PFloat (S754_finite true 4503599627370496 (-52)); PFloat (S754_finite true 4503599627370496 (-52)); PFloat (S754_finite true 4503599627370496 (-52))]));
   mkfd (lit "externalURL") (KVal MFString (PSeq KList []))].
(** basenodes.py 239-244 *)
Definition ImageTexture_decl : list fdecl :=
  [mkfd (lit "url") (KVal MFString (PSeq KList []));
   mkfd (lit "repeatS") (KVal SFBool (PInt (1)));
   mkfd (lit "repeatT") (KVal SFBool (PInt (1)));
   mkfd (lit "externalURL") (KVal MFString (PSeq KList []))].
(** basenodes.py 248-269 *)
Definition IndexedFaceSet_decl : list fdecl :=
  [mkfd (lit "colorIndex") (KVal MFInt32 (PSeq KList []));
   mkfd (lit "normal") (KNode);
   mkfd (lit "solid") (KVal SFBool (PInt (1)));
   mkfd (lit "ccw") (KVal SFBool (PInt (1)));
   mkfd (lit "coordIndex") (KVal MFInt32 (PSeq KList []));
   mkfd (lit "texCoord") (KNode);
   mkfd (lit "normalPerVertex") (KVal SFBool (PInt (1)));
   mkfd (lit "color") (KNode);
   mkfd (lit "colorPerVertex") (KVal SFBool (PInt (1)));
   mkfd (lit "coord") (KNode);
   mkfd (lit "convex") (KVal SFBool (PInt (1)));
   mkfd (lit "normalIndex") (KVal MFInt32 (PSeq KList []));
   mkfd (lit "texCoordIndex") (KVal MFInt32 (PSeq KList []));
   mkfd (lit "creaseAngle") (KVal SFFloat (PFloat (S754_zero false)));
   mkfd (lit "externalURL") (KVal MFString (PSeq KList []))].
(** basenodes.py 271-281 *)
Definition IndexedLineSet_decl : list fdecl :=
  [mkfd (lit "color") (KNode);
   mkfd (lit "colorPerVertex") (KVal SFBool (PInt (1)));
   mkfd (lit "colorIndex") (KVal MFInt32 (PSeq KList []));
   mkfd (lit "coord") (KNode);
   mkfd (lit "coordIndex") (KVal MFInt32 (PSeq KList []));
   mkfd (lit "externalURL") (KVal MFString (PSeq KList []))].
(** basenodes.py 283-288 *)
Definition Inline_decl : list fdecl :=
  [mkfd (lit "url") (KVal MFString (PSeq KList []));
   mkfd (lit "bboxCenter") (KVal SFVec3f (PSeq KList [PFloat (S754_zero false); PFloat (S754_zero false); PFloat (S754_zero false)]));
   mkfd (lit "bboxSize") (KVal SFVec3f (PSeq KList [PFloat (S754_finite true 4503599627370496 (-52)); PFloat (S754_finite true 4503599627370496 (-52)); PFloat (S754_finite true 4503599627370496 (-52))]));
   mkfd (lit "externalURL") (KVal MFString (PSeq KList []))].
(** basenodes.py 292-297 *)
Definition LOD_decl : list fdecl :=
  [mkfd (lit "range") (KVal MFFloat (PSeq KList []));
   mkfd (lit "center") (KVal SFVec3f (PSeq KList [PFloat (S754_zero false); PFloat (S754_zero false); PFloat (S754_zero false)]));
   mkfd (lit "level") (KNodes false);
   mkfd (lit "externalURL") (KVal MFString (PSeq KList []))].
(** basenodes.py 301-309 *)
Definition Material_decl : list fdecl :=
  [mkfd (lit "specularColor") (KVal SFColor (PSeq KList [PFloat (S754_zero false); PFloat (S754_zero false); PFloat (S754_zero false)]));
   mkfd (lit "emissiveColor") (KVal SFColor (PSeq KList [PFloat (S754_zero false); PFloat (S754_zero false); PFloat (S754_zero false)]));
   mkfd (lit "transparency") (KVal SFFloat (PFloat (S754_zero false)));
   mkfd (lit "diffuseColor") (KVal SFColor (PSeq KList [PFloat (S754_finite false 7205759403792794 (-53)); PFloat (S754_finite false 7205759403792794 (-53)); PFloat (S754_finite false 7205759403792794 (-53))]));
   mkfd (lit "ambientIntensity") (KVal SFFloat (PFloat (S754_finite false 7205759403792794 (-55))));
   mkfd (lit "shininess") (KVal SFFloat (PFloat (S754_finite false 7205759403792794 (-55))));
   mkfd (lit "externalURL") (KVal MFString (PSeq KList []))].
(** basenodes.py 313-325 *)
Definition MovieTexture_decl : list fdecl :=
  [mkfd (lit "stopTime") (KVal SFTime (PFloat (S754_zero false)));
   mkfd (lit "startTime") (KVal SFTime (PFloat (S754_zero false)));
   mkfd (lit "url") (KVal MFString (PSeq KList []));
   mkfd (lit "speed") (KVal SFFloat (PFloat (S754_finite false 4503599627370496 (-52))));
   mkfd (lit "repeatS") (KVal SFBool (PInt (1)));
   mkfd (lit "repeatT") (KVal SFBool (PInt (1)));
   mkfd (lit "loop") (KVal SFBool (PInt (0)));
   mkfd (lit "externalURL") (KVal MFString (PSeq KList []))].
(** basenodes.py 327-337 *)
Definition NavigationInfo_decl : list fdecl :=
  [mkfd (lit "speed") (KVal SFFloat (PFloat (S754_finite false 4503599627370496 (-52))));
   mkfd (lit "avatarSize") (KVal MFFloat (PSeq KList [PFloat (S754_finite false 4503599627370496 (-54)); PFloat (S754_finite false 7205759403792794 (-52)); PFloat (S754_finite false 6755399441055744 (-53))]));
   mkfd (lit "headlight") (KVal SFBool (PInt (1)));
   mkfd (lit "type") (KVal MFString (PSeq KList [PStr (lit "WALK")]));
   mkfd (lit "visibilityLimit") (KVal SFFloat (PFloat (S754_zero false)));
   mkfd (lit "externalURL") (KVal MFString (PSeq KList []))].
(** basenodes.py 339-342 *)
Definition Normal_decl : list fdecl :=
  [mkfd (lit "vector") (KVal MFVec3f (PSeq KList []));
   mkfd (lit "externalURL") (KVal MFString (PSeq KList []))].
(** basenodes.py 346-353 *)
Definition NormalInterpolator_decl : list fdecl :=
  [mkfd (lit "keyValue") (KVal MFVec3f (PSeq KList []));
   mkfd (lit "key") (KVal MFFloat (PSeq KList []));
   mkfd (lit "externalURL") (KVal MFString (PSeq KList []))].
(** basenodes.py 355-362 *)
Definition OrientationInterpolator_decl : list fdecl :=
  [mkfd (lit "keyValue") (KVal MFRotation (PSeq KList []));
   mkfd (lit "key") (KVal MFFloat (PSeq KList []));
   mkfd (lit "externalURL") (KVal MFString (PSeq KList []))].
(** basenodes.py 364-369 *)
Definition PixelTexture_decl : list fdecl :=
  [mkfd (lit "image") (KVal MFUInt32 (PSeq KList [PInt (0); PInt (0); PInt (0)]));
   mkfd (lit "repeatS") (KVal SFBool (PInt (1)));
   mkfd (lit "repeatT") (KVal SFBool (PInt (1)));
   mkfd (lit "externalURL") (KVal MFString (PSeq KList []))].
(** basenodes.py 373-384 *)
Definition PlaneSensor_decl : list fdecl :=
  [mkfd (lit "maxPosition") (KVal SFVec2f (PSeq KList [PFloat (S754_finite true 4503599627370496 (-52)); PFloat (S754_finite true 4503599627370496 (-52))]));
   mkfd (lit "enabled") (KVal SFBool (PInt (1)));
   mkfd (lit "autoOffset") (KVal SFBool (PInt (1)));
   mkfd (lit "minPosition") (KVal SFVec2f (PSeq KList [PFloat (S754_zero false); PFloat (S754_zero false)]));
   mkfd (lit "offset") (KVal SFVec3f (PSeq KList [PFloat (S754_zero false); PFloat (S754_zero false); PFloat (S754_zero false)]));
   mkfd (lit "externalURL") (KVal MFString (PSeq KList []))].
(** basenodes.py 386-395 *)
Definition PointLight_decl : list fdecl :=
  [mkfd (lit "on") (KVal SFBool (PInt (1)));
   mkfd (lit "intensity") (KVal SFFloat (PFloat (S754_finite false 4503599627370496 (-52))));
   mkfd (lit "attenuation") (KVal SFVec3f (PSeq KList [PFloat (S754_finite false 4503599627370496 (-52)); PFloat (S754_zero false); PFloat (S754_zero false)]));
   mkfd (lit "radius") (KVal SFFloat (PFloat (S754_finite false 7036874417766400 (-46))));
   mkfd (lit "location") (KVal SFVec3f (PSeq KList [PFloat (S754_zero false); PFloat (S754_zero false); PFloat (S754_zero false)]));
   mkfd (lit "color") (KVal SFColor (PSeq KList [PFloat (S754_finite false 4503599627370496 (-52)); PFloat (S754_finite false 4503599627370496 (-52)); PFloat (S754_finite false 4503599627370496 (-52))]));
   mkfd (lit "ambientIntensity") (KVal SFFloat (PFloat (S754_zero false)));
   mkfd (lit "externalURL") (KVal MFString (PSeq KList []))].
(** basenodes.py 399-408 *)
Definition PointSet_decl : list fdecl :=
  [mkfd (lit "color") (KNode);
   mkfd (lit "coord") (KNode);
   mkfd (lit "size") (KVal SFFloat (PFloat (S754_finite false 4503599627370496 (-52))));
   mkfd (lit "minSize") (KVal SFFloat (PFloat (S754_zero false)));
   mkfd (lit "maxSize") (KVal SFFloat (PFloat (S754_finite false 4503599627370496 (-52))));
   mkfd (lit "attenuation") (KVal SFVec3f (PSeq KList [PFloat (S754_finite false 4503599627370496 (-52)); PFloat (S754_zero false); PFloat (S754_zero false)]));
   mkfd (lit "externalURL") (KVal MFString (PSeq KList []))].
(** basenodes.py 411-418 *)
Definition PositionInterpolator_decl : list fdecl :=
  [mkfd (lit "keyValue") (KVal MFVec3f (PSeq KList []));
   mkfd (lit "key") (KVal MFFloat (PSeq KList []));
   mkfd (lit "externalURL") (KVal MFString (PSeq KList []))].
(** basenodes.py 420-431 *)
Definition ProximitySensor_decl : list fdecl :=
  [mkfd (lit "enabled") (KVal SFBool (PInt (1)));
   mkfd (lit "center") (KVal SFVec3f (PSeq KList [PFloat (S754_zero false); PFloat (S754_zero false); PFloat (S754_zero false)]));
   mkfd (lit "size") (KVal SFVec3f (PSeq KList [PFloat (S754_zero false); PFloat (S754_zero false); PFloat (S754_zero false)]));
   mkfd (lit "externalURL") (KVal MFString (PSeq KList []))].
(** basenodes.py 433-440 *)
Definition ScalarInterpolator_decl : list fdecl :=
  [mkfd (lit "keyValue") (KVal MFFloat (PSeq KList []));
   mkfd (lit "key") (KVal MFFloat (PSeq KList []));
   mkfd (lit "externalURL") (KVal MFString (PSeq KList []))].
(** basenodes.py 442-446 *)
Definition Shape_decl : list fdecl :=
  [mkfd (lit "geometry") (KNode);
   mkfd (lit "appearance") (KNode);
   mkfd (lit "externalURL") (KVal MFString (PSeq KList []))].
(** basenodes.py 450-462 *)
Definition Sound_decl : list fdecl :=
  [mkfd (lit "priority") (KVal SFFloat (PFloat (S754_zero false)));
   mkfd (lit "minFront") (KVal SFFloat (PFloat (S754_finite false 4503599627370496 (-52))));
   mkfd (lit "intensity") (KVal SFFloat (PFloat (S754_finite false 4503599627370496 (-52))));
   mkfd (lit "location") (KVal SFVec3f (PSeq KList [PFloat (S754_zero false); PFloat (S754_zero false); PFloat (S754_zero false)]));
   mkfd (lit "source") (KNode);
   mkfd (lit "maxBack") (KVal SFFloat (PFloat (S754_finite false 5629499534213120 (-49))));
   mkfd (lit "minBack") (KVal SFFloat (PFloat (S754_finite false 4503599627370496 (-52))));
   mkfd (lit "maxFront") (KVal SFFloat (PFloat (S754_finite false 5629499534213120 (-49))));
   mkfd (lit "spatialize") (KVal SFBool (PInt (1)));
   mkfd (lit "direction") (KVal SFVec3f (PSeq KList [PFloat (S754_zero false); PFloat (S754_zero false); PFloat (S754_finite false 4503599627370496 (-52))]));
   mkfd (lit "externalURL") (KVal MFString (PSeq KList []))].
(** basenodes.py 466-469 *)
Definition Sphere_decl : list fdecl :=
  [mkfd (lit "radius") (KVal SFFloat (PFloat (S754_finite false 4503599627370496 (-52))));
   mkfd (lit "externalURL") (KVal MFString (PSeq KList []))].
(** basenodes.py 473-482 *)
Definition SphereSensor_decl : list fdecl :=
  [mkfd (lit "enabled") (KVal SFBool (PInt (1)));
   mkfd (lit "autoOffset") (KVal SFBool (PInt (1)));
   mkfd (lit "offset") (KVal SFRotation (PSeq KList [PFloat (S754_zero false); PFloat (S754_finite false 4503599627370496 (-52)); PFloat (S754_zero false); PFloat (S754_zero false)]));
   mkfd (lit "externalURL") (KVal MFString (PSeq KList []))].
(** basenodes.py 484-496 *)
Definition SpotLight_decl : list fdecl :=
  [mkfd (lit "on") (KVal SFBool (PInt (1)));
   mkfd (lit "direction") (KVal SFVec3f (PSeq KList [PFloat (S754_zero false); PFloat (S754_zero false); PFloat (S754_finite true 4503599627370496 (-52))]));
   mkfd (lit "attenuation") (KVal SFVec3f (PSeq KList [PFloat (S754_finite false 4503599627370496 (-52)); PFloat (S754_zero false); PFloat (S754_zero false)]));
   mkfd (lit "radius") (KVal SFFloat (PFloat (S754_finite false 7036874417766400 (-46))));
   mkfd (lit "location") (KVal SFVec3f (PSeq KList [PFloat (S754_zero false); PFloat (S754_zero false); PFloat (S754_zero false)]));
   mkfd (lit "intensity") (KVal SFFloat (PFloat (S754_finite false 4503599627370496 (-52))));
   mkfd (lit "color") (KVal SFColor (PSeq KList [PFloat (S754_finite false 4503599627370496 (-52)); PFloat (S754_finite false 4503599627370496 (-52)); PFloat (S754_finite false 4503599627370496 (-52))]));
   mkfd (lit "ambientIntensity") (KVal SFFloat (PFloat (S754_zero false)));
   mkfd (lit "beamWidth") (KVal SFFloat (PFloat (S754_finite false 7074236280275066 (-52))));
   mkfd (lit "cutOffAngle") (KVal SFFloat (PFloat (S754_finite false 7074236280275066 (-53))));
   mkfd (lit "externalURL") (KVal MFString (PSeq KList []))].
(** basenodes.py 500-504 *)
Definition Switch_decl : list fdecl :=
  [mkfd (lit "whichChoice") (KVal SFInt32 (PInt (-1)));
   mkfd (lit "choice") (KNodes false);
   mkfd (lit "externalURL") (KVal MFString (PSeq KList []))].
(** basenodes.py 508-514 *)
Definition Text_decl : list fdecl :=
  [mkfd (lit "length") (KVal MFFloat (PSeq KList []));
   mkfd (lit "fontStyle") (KNode);
   mkfd (lit "string") (KVal MFString (PSeq KList []));
   mkfd (lit "maxExtent") (KVal SFFloat (PFloat (S754_zero false)));
   mkfd (lit "externalURL") (KVal MFString (PSeq KList []))].
(** basenodes.py 518-521 *)
Definition TextureCoordinate_decl : list fdecl :=
  [mkfd (lit "point") (KVal MFVec2f (PSeq KList []));
   mkfd (lit "externalURL") (KVal MFString (PSeq KList []))].
(** basenodes.py 525-531 *)
Definition TextureTransform_decl : list fdecl :=
  [mkfd (lit "rotation") (KVal SFFloat (PFloat (S754_zero false)));
   mkfd (lit "scale") (KVal SFVec2f (PSeq KList [PFloat (S754_finite false 4503599627370496 (-52)); PFloat (S754_finite false 4503599627370496 (-52))]));
   mkfd (lit "translation") (KVal SFVec2f (PSeq KList [PFloat (S754_zero false); PFloat (S754_zero false)]));
   mkfd (lit "center") (KVal SFVec2f (PSeq KList [PFloat (S754_zero false); PFloat (S754_zero false)]));
   mkfd (lit "externalURL") (KVal MFString (PSeq KList []))].
(** basenodes.py 535-547 *)
Definition TimeSensor_decl : list fdecl :=
  [mkfd (lit "cycleInterval") (KVal SFTime (PFloat (S754_finite false 4503599627370496 (-52))));
   mkfd (lit "stopTime") (KVal SFTime (PFloat (S754_zero false)));
   mkfd (lit "enabled") (KVal SFBool (PInt (1)));
   mkfd (lit "loop") (KVal SFBool (PInt (0)));
   mkfd (lit "startTime") (KVal SFTime (PFloat (S754_zero false)));
   mkfd (lit "externalURL") (KVal MFString (PSeq KList []))].
(** basenodes.py 549-559 *)
Definition TouchSensor_decl : list fdecl :=
  [mkfd (lit "enabled") (KVal SFBool (PInt (1)));
   mkfd (lit "externalURL") (KVal MFString (PSeq KList []))].
(** basenodes.py 561-614 *)
Definition Transform_decl : list fdecl :=
  [mkfd (lit "scale") (KVal SFVec3f (PSeq KList [PFloat (S754_finite false 4503599627370496 (-52)); PFloat (S754_finite false 4503599627370496 (-52)); PFloat (S754_finite false 4503599627370496 (-52))]));
   mkfd (lit "center") (KVal SFVec3f (PSeq KList [PFloat (S754_zero false); PFloat (S754_zero false); PFloat (S754_zero false)]));
   mkfd (lit "bboxCenter") (KVal SFVec3f (PSeq KList [PFloat (S754_zero false); PFloat (S754_zero false); PFloat (S754_zero false)]));
   mkfd (lit "translation") (KVal SFVec3f (PSeq KList [PFloat (S754_zero false); PFloat (S754_zero false); PFloat (S754_zero false)]));
   mkfd (lit "scaleOrientation") (KVal SFRotation (PSeq KList [PFloat (S754_zero false); PFloat (S754_zero false); PFloat (S754_finite false 4503599627370496 (-52)); PFloat (S754_zero false)]));
   mkfd (lit "rotation") (KVal SFRotation (PSeq KList [PFloat (S754_zero false); PFloat (S754_zero false); PFloat (S754_finite false 4503599627370496 (-52)); PFloat (S754_zero false)]));
   mkfd (lit "bboxSize") (KVal SFVec3f (PSeq KList [PFloat (S754_finite true 4503599627370496 (-52)); PFloat (S754_finite true 4503599627370496 (-52)); PFloat (S754_finite true 4503599627370496 (-52))]));
   mkfd (lit "children") (KNodes false);
   mkfd (lit "externalURL") (KVal MFString (PSeq KList []))].
(** basenodes.py 616-627 *)
Definition Viewpoint_decl : list fdecl :=
  [mkfd (lit "jump") (KVal SFBool (PInt (1)));
   mkfd (lit "position") (KVal SFVec3f (PSeq KList [PFloat (S754_zero false); PFloat (S754_zero false); PFloat (S754_finite false 5629499534213120 (-49))]));
   mkfd (lit "fieldOfView") (KVal SFFloat (PFloat (S754_finite false 7074236280275066 (-53))));
   mkfd (lit "orientation") (KVal SFRotation (PSeq KList [PFloat (S754_zero false); PFloat (S754_zero false); PFloat (S754_finite false 4503599627370496 (-52)); PFloat (S754_zero false)]));
   mkfd (lit "description") (KVal SFString (PStr (lit "")));
   mkfd (lit "externalURL") (KVal MFString (PSeq KList []))].
(** basenodes.py 629-638 *)
Definition VisibilitySensor_decl : list fdecl :=
  [mkfd (lit "enabled") (KVal SFBool (PInt (1)));
   mkfd (lit "center") (KVal SFVec3f (PSeq KList [PFloat (S754_zero false); PFloat (S754_zero false); PFloat (S754_zero false)]));
   mkfd (lit "size") (KVal SFVec3f (PSeq KList [PFloat (S754_zero false); PFloat (S754_zero false); PFloat (S754_zero false)]));
   mkfd (lit "externalURL") (KVal MFString (PSeq KList []))].
(** basenodes.py 640-644 *)
Definition WorldInfo_decl : list fdecl :=
  [mkfd (lit "info") (KVal MFString (PSeq KList []));
   mkfd (lit "title") (KVal SFString (PStr (lit "")));
   mkfd (lit "externalURL") (KVal MFString (PSeq KList []))].
Definition std_protos : list (text * list fdecl) :=
  [(lit "Anchor", Anchor_decl);
   (lit "Appearance", Appearance_decl);
   (lit "AudioClip", AudioClip_decl);
   (lit "Background", Background_decl);
   (lit "Billboard", Billboard_decl);
   (lit "Box", Box_decl);
   (lit "Collision", Collision_decl);
   (lit "Color", Color_decl);
   (lit "ColorInterpolator", ColorInterpolator_decl);
   (lit "Cone", Cone_decl);
   (lit "Coordinate", Coordinate_decl);
   (lit "CoordinateInterpolator", CoordinateInterpolator_decl);
   (lit "Cylinder", Cylinder_decl);
   (lit "CylinderSensor", CylinderSensor_decl);
   (lit "DirectionalLight", DirectionalLight_decl);
   (lit "ElevationGrid", ElevationGrid_decl);
   (lit "Extrusion", Extrusion_decl);
   (lit "Fog", Fog_decl);
   (lit "FontStyle", FontStyle_decl);
   (lit "Group", Group_decl);
   (lit "ImageTexture", ImageTexture_decl);
   (lit "IndexedFaceSet", IndexedFaceSet_decl);
   (lit "IndexedLineSet", IndexedLineSet_decl);
   (lit "Inline", Inline_decl);
   (lit "LOD", LOD_decl);
   (lit "Material", Material_decl);
   (lit "MovieTexture", MovieTexture_decl);
   (lit "NavigationInfo", NavigationInfo_decl);
   (lit "Normal", Normal_decl);
   (lit "NormalInterpolator", NormalInterpolator_decl);
   (lit "OrientationInterpolator", OrientationInterpolator_decl);
   (lit "PixelTexture", PixelTexture_decl);
   (lit "PlaneSensor", PlaneSensor_decl);
   (lit "PointLight", PointLight_decl);
   (lit "PointSet", PointSet_decl);
   (lit "PositionInterpolator", PositionInterpolator_decl);
   (lit "ProximitySensor", ProximitySensor_decl);
   (lit "ScalarInterpolator", ScalarInterpolator_decl);
   (lit "Shape", Shape_decl);
   (lit "Sound", Sound_decl);
   (lit "Sphere", Sphere_decl);
   (lit "SphereSensor", SphereSensor_decl);
   (lit "SpotLight", SpotLight_decl);
   (lit "Switch", Switch_decl);
   (lit "Text", Text_decl);
   (lit "TextureCoordinate", TextureCoordinate_decl);
   (lit "TextureTransform", TextureTransform_decl);
   (lit "TimeSensor", TimeSensor_decl);
   (lit "TouchSensor", TouchSensor_decl);
   (lit "Transform", Transform_decl);
   (lit "Viewpoint", Viewpoint_decl);
   (lit "VisibilitySensor", VisibilitySensor_decl);
   (lit "WorldInfo", WorldInfo_decl)].
