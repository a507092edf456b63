-Q theories Verif
theories/Base.v
theories/PyList.v
theories/PyList_Proofs.v
theories/OList_Model.v
theories/OList_Spec.v
theories/OList_Proofs.v
theories/P_OList.v
theories/Field_Model.v
theories/Field_Spec.v
theories/Field_Proofs.v
theories/P_Field.v
theories/Weak_Model.v
theories/Weak_Proofs.v
theories/P_Weak.v
theories/NodePath_Model.v
theories/NodePath_Proofs.v
theories/P_NodePath.v
theories/PyDict.v
theories/PyDict_Proofs.v
theories/Text.v
theories/Cull_Model.v
theories/P_Cull.v
theories/ProtoFn_Model.v
theories/P_ProtoFn.v
theories/SceneGraph_Model.v
theories/SceneGraph_Proofs.v
theories/P_SceneGraph.v
theories/Route_Model.v
theories/Route_Spec.v
theories/Route_Proofs.v
theories/P_Route.v
theories/Cache_Model.v
theories/Cache_Spec.v
theories/Cache_Proofs.v
theories/PathMatrix_Model.v
theories/PathMatrix_Proofs.v
theories/P_Cache.v
theories/Copy_Model.v
theories/Copy_Spec.v
theories/Copy_Proofs.v
theories/P_Copy.v
theories/Instantiate_Model.v
theories/P_Instantiate.v
theories/MFNode_Model.v
theories/P_MFNode.v
theories/Float.v
theories/Float_Proofs.v
theories/Collapse_Model.v
theories/Collapse_Spec.v
theories/P_Collapse.v
theories/Color_Model.v
theories/Color_Spec.v
theories/P_Color.v
theories/Coerce_Model.v
theories/Coerce_Spec.v
theories/Coerce_Proofs.v
theories/P_Coerce.v
theories/Matrix_Model.v
theories/Matrix_Spec.v
theories/Matrix_Proofs.v
theories/P_Matrix.v
theories/Grammar_Model.v
theories/Grammar_Proofs.v
theories/Lex_Spec.v
theories/Lex_Proofs.v
theories/Doc_Spec.v
theories/Doc_Proofs.v
theories/P_Grammar.v
theories/PyNum.v
theories/PyNum_Proofs.v
theories/VrmlStr_Model.v
theories/VrmlStr_Spec.v
theories/VrmlStr_Proofs.v
theories/VrmlStr_Values.v
theories/FloatStr.v
theories/P_VrmlStr.v
theories/P_Format.v
theories/Scene_Model.v
theories/Linearise_Model.v
theories/Build_Model.v
theories/Proto_Model.v
theories/Scene_Spec.v
theories/Proto_Spec.v
theories/Linearise_Proofs.v
theories/Drop_Proofs.v
theories/Layout_Proofs.v
theories/P_Linearise.v
theories/Written.v
theories/Rebuilt.v
theories/Scene_Proofs.v
theories/Whole.v
theories/StdNodes.v
theories/ExtNodes.v
theories/Std_Proofs.v
theories/Garbled.v
theories/Unreadable.v
theories/P_Scene.v
theories/Reading_Spec.v
theories/Reading_Proofs.v
theories/ProtoText.v
theories/ProtoTable.v
theories/ProtoBody.v
theories/ProtoFile.v
theories/P_Proto.v
theories/P_Resaved.v
theories/Reading_Facts.v
theories/Closed_Spec.v
theories/Closed_Proofs.v
theories/P_Reading.v
theories/Script_Spec.v
theories/Script_Proofs.v
theories/P_Script.v
theories/ScriptText.v
theories/ScriptSave_Spec.v
theories/ScriptSave.v
theories/ScriptGarbled.v
theories/P_ScriptSave.v
theories/Reload.v
theories/P_Reload.v
theories/Resave.v
theories/P_Resave.v
theories/Class_Model.v
theories/P_Class.v
theories/Net_Model.v
theories/Net_Spec.v
theories/Net_Proofs.v
theories/P_Net.v
theories/X3D_Spec.v
theories/X3D_Model.v
theories/X3D_Parser.v
theories/X3D_Proofs.v
theories/X3D_File.v
theories/P_X3D.v
theories/ExternGarbled.v
theories/P_Extern.v
theories/Tree_Spec.v
theories/Tree_Proofs.v
theories/P_Tree.v
theories/Rounded_Model.v
theories/Rounded_Proofs.v
theories/P_Rounded.v
theories/Values_Spec.v
theories/Values_Proofs.v
theories/P_Values.v
theories/Bytes_Model.v
theories/Bytes_Spec.v
theories/Bytes_Proofs.v
theories/P_Bytes.v
theories/Watch_Model.v
theories/Watch_Spec.v
theories/Watch_Proofs.v
theories/P_Watch.v
theories/Turn_Model.v
theories/Turn_Spec.v
theories/Turn_Proofs.v
theories/P_Turn.v
theories/Turn32_Model.v
theories/Turn32_Spec.v
theories/Turn32_Proofs.v
theories/TurnWide_Proofs.v
theories/P_Turn32.v
theories/Echo_Model.v
theories/Echo_Spec.v
theories/Echo_Proofs.v
theories/P_Echo.v
theories/P_Types.v
theories/WeakKey_Model.v
theories/WeakKey_Spec.v
theories/WeakKey_Proofs.v
theories/P_WeakKey.v
theories/Proj_Model.v
theories/Proj_Spec.v
theories/Proj_Proofs.v
theories/P_Proj.v
theories/Combined_Model.v
theories/Combined_Spec.v
theories/Combined_Proofs.v
theories/P_Combined.v
theories/Placed_Model.v
theories/Placed_Spec.v
theories/Placed_Proofs.v
theories/P_Placed.v
