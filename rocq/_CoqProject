-Q theories Verif
theories/Outcome.v
theories/Rational_Model.v
theories/Rational_Spec.v
theories/Rational_Proofs.v
theories/Rational_Props.v
theories/Str_Model.v
theories/RatParse_Model.v
theories/Str_Spec.v
theories/Str_Proofs.v
theories/RatParse_Spec.v
theories/RatParse_Proofs.v
theories/RatParse_Props.v
theories/Str_Props.v
theories/Codec_Model.v
theories/Codec_Spec.v
theories/Codec_Proofs.v
theories/SnapBall_Model.v
theories/SnapRb2_Model.v
theories/SnapRb3_Model.v
theories/Snap_Spec.v
theories/Snap_Proofs.v
theories/Snap_Props.v
theories/Config_Model.v
theories/Config_Spec.v
theories/Config_Proofs.v
theories/Config_Props.v
theories/Names_Model.v
theories/Names_Spec.v
theories/Names_Proofs.v
theories/Names_Props.v
theories/Cli_Model.v
theories/Cli_Spec.v
theories/Cli_Proofs.v
theories/Cli_Props.v
theories/Grid_Model.v
theories/Grid_Spec.v
theories/Grid_Proofs.v
theories/Grid_Arith.v
theories/Grid_Dim.v
theories/Grid_Exact.v
theories/Grid_Final.v
theories/Grid_Props.v
theories/Ccd_Model.v
theories/Ccd_Spec.v
theories/Ccd_Proofs.v
theories/Ccd_Props.v
theories/Lin_Model.v
theories/ContactBall_Model.v
theories/ContactRb2_Model.v
theories/ContactRb3_Model.v
theories/Lin_Proofs.v
theories/Contact_Spec.v
theories/Contact_Proofs.v
theories/Contact3_Proofs.v
theories/Jac_Proofs.v
theories/Contact_Props.v
theories/Impact_Model.v
theories/Impact_Spec.v
theories/Impact_Proofs.v
theories/Impact_Inst.v
theories/Impact_Thms.v
theories/Impact_Props.v
theories/Reflect_Model.v
theories/Reflect_Spec.v
theories/Reflect_Proofs.v
theories/Reflect_Thms.v
theories/Reflect_Ex.v
theories/Reflect_Props.v
theories/Cache_Model.v
theories/Cache_Spec.v
theories/Cache_Proofs.v
theories/Cache_Thms.v
theories/Cache_Props.v
theories/Portal_Model.v
theories/Portal_Spec.v
theories/Portal_Proofs.v
theories/Portal_Thms.v
theories/Grid_Real.v
theories/Portal_Active.v
theories/Portal_Runs.v
theories/Portal_Ex.v
theories/Portal_Props.v
theories/Integr_Model.v
theories/Integr_Spec.v
theories/Integr_Proofs.v
theories/Integr_Thms.v
theories/Integr_Grad.v
theories/Integr_Ex.v
theories/Integr_Props.v
theories/State_Model.v
theories/State_Spec.v
theories/State_Proofs.v
theories/State_Props.v
theories/Script_Model.v
theories/Script_Spec.v
theories/Script_Proofs.v
theories/Script_Props.v
theories/Rot_Model.v
theories/Rot_Spec.v
theories/Rot_Alg.v
theories/Rot_Proofs.v
theories/Rot_Thms.v
theories/Rot_Props.v
theories/Geom_Model.v
theories/Geom_Spec.v
theories/Geom_Sets.v
theories/Geom_Circle.v
theories/Geom_Boxes.v
theories/Geom_Clip.v
theories/Geom_Sat.v
theories/Geom_BoxBox.v
theories/Geom_Space.v
theories/Geom_Aabb.v
theories/Geom_Props.v
theories/Frame_Model.v
theories/Frame_Spec.v
theories/Frame_Proofs.v
theories/Frame_Props.v
theories/Wall_Model.v
theories/Wall_Spec.v
theories/Wall_Geo.v
theories/Wall_Thms.v
theories/Wall_More.v
theories/Vol_Model.v
theories/Vol_Spec.v
theories/Vol_Proofs.v
theories/Wall_Props.v
theories/Quad_Model.v
theories/Quad_Proofs.v
theories/Resid_Model.v
theories/Resid_Spec.v
theories/Resid_Proofs.v
theories/Resid_Props.v
theories/Apgd_Model.v
theories/Apgd_Spec.v
theories/Apgd_Proofs.v
theories/Apgd_Thms.v
theories/Apgd_Ex.v
theories/Apgd_Props.v
theories/Stagger_Model.v
theories/Stagger_Spec.v
theories/Stagger_Proofs.v
theories/Stagger_Props.v
theories/Sparse_Model.v
theories/Sparse_Spec.v
theories/Sparse_Proofs.v
theories/Sparse_Props.v
theories/Flow_Model.v
theories/Flow_Spec.v
theories/Flow_Proofs.v
theories/Flow_Run.v
theories/Flow_End.v
theories/Flow_Props.v
theories/Narrow_Model.v
theories/Narrow_Spec.v
theories/Narrow_Proofs.v
theories/Narrow_Thms.v
theories/Grid_Real3.v
theories/Narrow_Space.v
theories/Narrow_Total.v
theories/Narrow_Ex.v
theories/Narrow_Props.v
theories/Sob_Model.v
theories/Sob_Spec.v
theories/Sob_Proofs.v
theories/Sob_Thms.v
theories/Sob_Sims.v
theories/Sob_Final.v
theories/Sob_Props.v
theories/World_Sob.v
theories/World_Model.v
theories/World_Spec.v
theories/World_Proofs.v
theories/World_Thms.v
theories/World_Ball.v
theories/World_Rb2.v
theories/World_Rb3.v
theories/World_Ex.v
theories/World_Props.v
theories/Energy_Spec.v
theories/Energy_Proofs.v
theories/Energy_Planar.v
theories/Energy_Space.v
theories/Energy_Ex.v
theories/Energy_Props.v
theories/Scene_Text.v
theories/Scene_Model.v
theories/Scene_Spec.v
theories/Scene_TextProofs.v
theories/Scene_Proofs.v
theories/Scene_Write.v
theories/Scene_Thms.v
theories/Scene_Props.v
theories/Scene2_Model.v
theories/Scene2_Spec.v
theories/Scene2_Proofs.v
theories/Scene2_Props.v
theories/Scene3_Model.v
theories/Scene3_Spec.v
theories/Scene3_Rend.v
theories/Scene3_Proofs.v
theories/Scene3_Thms.v
theories/Scene3_Props.v
theories/SceneSay_Spec.v
theories/SceneSay_Proofs.v
theories/SceneSay_Props.v
theories/SceneNum_Props.v
theories/Moment_Model.v
theories/Moment_Spec.v
theories/Moment_Int.v
theories/Moment_Proofs.v
theories/Moment_Mesh.v
theories/Moment_Ex.v
theories/Moment_Props.v
theories/Sdf_Model.v
theories/Sdf_Spec.v
theories/Sdf_Proofs.v
theories/Sdf_Thms.v
theories/Sdf_Ex.v
theories/Sdf_Props.v
theories/Hdf_Model.v
theories/Hdf_Spec.v
theories/Hdf_Proofs.v
theories/Hdf_Thms.v
theories/Hdf_Ex.v
theories/Hdf_Props.v
theories/Out_Model.v
theories/Out_Spec.v
theories/Out_Proofs.v
theories/Out_Thms.v
theories/Out_Main.v
theories/Out_Props.v
theories/Force_Model.v
theories/Force_Spec.v
theories/Force_Proofs.v
theories/Force_Thms.v
theories/Force_Mom.v
theories/Force_Main.v
theories/Force_Where.v
theories/Force_Props.v
theories/Tele_Model.v
theories/Tele_Spec.v
theories/Tele_Search.v
theories/Tele_Plane.v
theories/Tele_Planar.v
theories/Tele_Space.v
theories/Tele_Only.v
theories/Tele_Ex.v
theories/Tele_Props.v
theories/Boxes_Model.v
theories/Boxes_Spec.v
theories/Boxes_Zono.v
theories/Boxes_Facet.v
theories/Boxes_Sat.v
theories/Boxes_Geom.v
theories/Boxes_Clip.v
theories/Boxes_Face.v
theories/Boxes_Points.v
theories/Boxes_Case.v
theories/Boxes_Edge.v
theories/Boxes_All.v
theories/Boxes_Ex.v
theories/Boxes_Scene.v
theories/Boxes_Props.v
theories/Nlp_Model.v
theories/Nlp_Spec.v
theories/Nlp_Proofs.v
theories/Nlp_Thms.v
theories/Nlp_Ex.v
theories/Nlp_Props.v
theories/Gui_Model.v
theories/Gui_Spec.v
theories/Gui_Proofs.v
theories/Gui_Proofs2.v
theories/Gui_Paint.v
theories/Gui_Movie.v
theories/Gui_Reset.v
theories/Gui_Rate.v
theories/Gui_Ex.v
theories/Gui_Props.v
theories/Cam_Model.v
theories/Cam_Spec.v
theories/Cam_Plane.v
theories/Cam_Space.v
theories/Cam_Space2.v
theories/Cam_Fit.v
theories/Cam_Ex.v
theories/Cam_Bad.v
theories/Cam_Props.v
theories/Py_Model.v
theories/Py_Spec.v
theories/Py_Proofs.v
theories/Py_Files.v
theories/Py_Props.v
theories/Arr_Model.v
theories/Arr_Spec.v
theories/Arr_Proofs.v
theories/Arr_Props.v
