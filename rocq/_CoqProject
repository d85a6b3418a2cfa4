-Q theories Verif
theories/Blossom.v
theories/Spline_Model.v
theories/Spline_Spec.v
theories/Spline_Proofs.v
theories/Spline_Proofs2.v
theories/Spline_Proofs3.v
theories/Spline_Proofs4.v
theories/Spline_Proofs5.v
theories/Properties_Spline.v
theories/Grid_Model.v
theories/AStar_Model.v
theories/AStar_Spec.v
theories/AStar_Proofs.v
theories/AStar_Proofs2.v
theories/Grid_Proofs.v
theories/Grid_Proofs2.v
theories/Grid_Proofs3.v
theories/Properties_Grid.v
theories/Opti_Model.v
theories/Opti_Spec.v
theories/Opti_Proofs.v
theories/Opti_Proofs2.v
theories/Opti_Proofs3.v
theories/Properties_Opti.v
theories/Geom_Model.v
theories/Geom_Spec.v
theories/Geom_Proofs.v
theories/Geom_Proofs2.v
theories/Geom_Proofs3.v
theories/Geom_Proofs4.v
theories/Geom_Proofs5.v
theories/Properties_Geom.v
theories/Timing_Model.v
theories/Timing_Spec.v
theories/Timing_Proofs.v
theories/Timing_Proofs2.v
theories/Properties_Timing.v
theories/Fleet_Model.v
theories/Fleet_Spec.v
theories/Fleet_Proofs.v
theories/Properties_Fleet.v
theories/Dist_Model.v
theories/Dist_Spec.v
theories/Dist_Proofs.v
theories/Properties_Dist.v
theories/Admm_Model.v
theories/Admm_Spec.v
theories/Admm_Proofs.v
theories/Admm_Proofs2.v
theories/Admm_Proofs3.v
theories/Properties_Admm.v
theories/Angle_Model.v
theories/Angle_Proofs.v
theories/Gcode_Model.v
theories/Gcode_Spec.v
theories/Gcode_Proofs.v
theories/Gcode_Proofs2.v
theories/Gmove_Model.v
theories/Gmove_Spec.v
theories/Gmove_Proofs.v
theories/Gmove_Proofs2.v
theories/Gmove_Proofs3.v
theories/Bang_Model.v
theories/Bang_Proofs.v
theories/Properties_Gcode.v
theories/Properties_Gmove.v
theories/Properties_Bang.v
theories/Vehicle_Model.v
theories/Wheel_Model.v
theories/Quad_Model.v
theories/Vehicle_Spec.v
theories/Vehicle_Proofs.v
theories/Vehicle_Proofs2.v
theories/Wheel_Proofs.v
theories/Wheel_Proofs2.v
theories/Wheel_Proofs3.v
theories/Quad_Proofs.v
theories/Quad_Proofs2.v
theories/Vehicle_Examples.v
theories/Properties_Vehicle.v
theories/Properties_Wheel.v
theories/Properties_Quad.v
theories/Obst_Model.v
theories/Obst_Spec.v
theories/Obst_Proofs.v
theories/Obst_Proofs2.v
theories/Obst_Proofs3.v
theories/Obst_Proofs4.v
theories/Properties_Obst.v
theories/Bounce_Model.v
theories/Bounce_Proofs.v
theories/Properties_Bounce.v
theories/Span_Proofs.v
theories/Span_Proofs2.v
theories/Splop_Model.v
theories/Splop_Spec.v
theories/Splop_Proofs.v
theories/Splop_Proofs2.v
theories/Splop_Proofs3.v
theories/Splop_Proofs4.v
theories/Properties_Splop.v
theories/End_Proofs.v
theories/Multi_Model.v
theories/Multi_Spec.v
theories/Multi_Proofs.v
theories/Multi_Proofs2.v
theories/Properties_Multi.v
theories/Contact_Proofs.v
theories/Concat_Model.v
theories/Concat_Spec.v
theories/Concat_Proofs.v
theories/Concat_Proofs2.v
theories/Concat_Proofs3.v
theories/Concat_Proofs4.v
theories/Concat_Proofs5.v
theories/Concat_Proofs6.v
theories/Concat_Proofs7.v
theories/Concat_Proofs8.v
theories/Properties_Concat.v
theories/Export_Model.v
theories/Export_Spec.v
theories/Export_Proofs.v
theories/Export_Proofs2.v
theories/Export_Proofs3.v
theories/Properties_Export.v
theories/Cpp_Model.v
theories/Cpp_Spec.v
theories/Cpp_Proofs.v
theories/Cpp_Proofs2.v
theories/Cpp_Proofs3.v
theories/Properties_Cpp.v
theories/Movie_Model.v
theories/Movie_Spec.v
theories/Movie_Proofs.v
theories/Properties_Movie.v
theories/Svg_Model.v
theories/Svg_Spec.v
theories/Svg_Proofs.v
theories/Svg_Proofs2.v
theories/Svg_Proofs3.v
theories/Properties_Svg.v
theories/Gui_Model.v
theories/Gui_Spec.v
theories/Gui_Proofs.v
theories/Gui_Proofs2.v
theories/Properties_Gui.v
theories/Frame_Model.v
theories/Frame_Spec.v
theories/Frame_Proofs.v
theories/Frame_Proofs2.v
theories/Frame_Proofs3.v
theories/Frame_Proofs4.v
theories/Frame_Proofs5.v
theories/Frame_Proofs6.v
theories/Properties_Frame.v
theories/Sched_Model.v
theories/Sched_Spec.v
theories/Sched_Proofs.v
theories/Sched_Proofs2.v
theories/Sched_Proofs3.v
theories/Sched_Proofs4.v
theories/Sched_Proofs5.v
theories/Sched_Proofs6.v
theories/Sched_Proofs7.v
theories/Sched_Proofs8.v
theories/Properties_Sched.v
theories/Shift_Model.v
theories/Shift_Spec.v
theories/Shift_Proofs.v
theories/Shift_Proofs2.v
theories/Shift_Proofs3.v
theories/Shift_Proofs4.v
theories/Shift_Proofs5.v
theories/Shift_Proofs6.v
theories/Shift_Proofs7.v
theories/Shift_Proofs8.v
theories/Shift_Proofs9.v
theories/Properties_Shift.v
theories/Lift_Model.v
theories/Lift_Spec.v
theories/Lift_Proofs.v
theories/Lift_Proofs2.v
theories/Lift_Proofs3.v
theories/Lift_Proofs4.v
theories/Lift_Proofs5.v
theories/Lift_Examples.v
theories/Lift_Examples2.v
theories/Properties_Lift.v
theories/Loop_Model.v
theories/Loop_Spec.v
theories/Loop_Proofs.v
theories/Loop_Proofs2.v
theories/Loop_Proofs3.v
theories/Loop_Proofs4.v
theories/Loop_Proofs5.v
theories/Loop_Proofs6.v
theories/Loop_Proofs7.v
theories/Loop_Proofs8.v
theories/Loop_Proofs9.v
theories/Loop_Proofs10.v
theories/Loop_Proofs11.v
theories/Loop_Examples.v
theories/Loop_Proofs12.v
theories/Loop_Examples2.v
theories/Loop_Examples3.v
theories/Properties_Loop.v
theories/Free_Model.v
theories/Free_Spec.v
theories/Free_Proofs.v
theories/Free_Proofs2.v
theories/Free_Proofs3.v
theories/Free_Proofs4.v
theories/Free_Proofs5.v
theories/Free_Proofs6.v
theories/Free_Proofs7.v
theories/Free_Proofs8.v
theories/Free_Examples.v
theories/Properties_Free.v
theories/Guess_Model.v
theories/Guess_Spec.v
theories/Guess_Proofs.v
theories/Guess_Proofs2.v
theories/Guess_Proofs3.v
theories/Guess_Proofs4.v
theories/Guess_Proofs5.v
theories/Guess_Proofs6.v
theories/Properties_Guess.v
theories/Mission_Model.v
theories/Mission_Spec.v
theories/Mission_Proofs.v
theories/Mission_Proofs2.v
theories/Mission_Proofs3.v
theories/Mission_Proofs4.v
theories/Mission_Proofs5.v
theories/Mission_Proofs6.v
theories/Mission_Examples.v
theories/Mission_Examples2.v
theories/Mission_Examples3.v
theories/Properties_Mission.v
theories/Draw_Model.v
theories/Draw_Spec.v
theories/Draw_Proofs.v
theories/Draw_Proofs2.v
theories/Draw_Proofs3.v
theories/Draw_Proofs4.v
theories/Draw_Proofs5.v
theories/Draw_Proofs6.v
theories/Draw_Examples.v
theories/Properties_Draw.v
theories/Store_Model.v
theories/Store_Spec.v
theories/Store_Proofs.v
theories/Store_Proofs2.v
theories/Store_Proofs3.v
theories/Store_Proofs4.v
theories/Store_Proofs5.v
theories/Store_Examples.v
theories/Properties_Store.v
theories/Bern_Spec.v
theories/Bern_Proofs.v
theories/Bern_Proofs2.v
theories/Bern_Proofs3.v
theories/Trip_Model.v
theories/Trip_Spec.v
theories/Trip_Proofs.v
theories/Trip_Proofs2.v
theories/Trip_Proofs3.v
theories/Trip_Proofs4.v
theories/Trip_Proofs5.v
theories/Trip_Proofs6.v
theories/Bern_Proofs4.v
theories/Bern_Proofs5.v
theories/Trip_Examples.v
theories/Trip_Examples2.v
theories/Trip_Proofs7.v
theories/Properties_Bern.v
theories/Properties_Trip.v
theories/Team_Model.v
theories/Team_Proofs.v
theories/Team_Proofs2.v
theories/Team_Proofs3.v
theories/Team_Examples.v
theories/Properties_Team.v
theories/Nurbs_Model.v
theories/Nurbs_Spec.v
theories/Nurbs_Proofs.v
theories/Nurbs_Proofs2.v
theories/Nurbs_Proofs3.v
theories/Nurbs_Proofs4.v
theories/Nurbs_Proofs5.v
theories/Nurbs_Proofs6.v
theories/Nurbs_Examples.v
theories/Properties_Nurbs.v
theories/Mill_Model.v
theories/Mill_Spec.v
theories/Mill_Proofs.v
theories/Mill_Proofs2.v
theories/Mill_Proofs3.v
theories/Mill_Proofs4.v
theories/Mill_Examples.v
theories/Properties_Mill.v
theories/Share_Model.v
theories/Share_Spec.v
theories/Share_Proofs.v
theories/Share_Proofs2.v
theories/Share_Proofs3.v
theories/Share_Proofs4.v
theories/Properties_Share.v
theories/Warm_Model.v
theories/Warm_Spec.v
theories/Warm_Proofs.v
theories/Warm_Proofs2.v
theories/Warm_Examples.v
theories/Properties_Warm.v
theories/Step_Model.v
theories/Step_Spec.v
theories/Step_Proofs.v
theories/Step_Proofs2.v
theories/Step_Proofs3.v
theories/Step_Proofs4.v
theories/Step_Proofs5.v
theories/Step_Examples.v
theories/Properties_Step.v
theories/Memo_Model.v
theories/Memo_Spec.v
theories/Memo_Proofs.v
theories/Properties_Memo.v
theories/Path_Model.v
theories/Path_Spec.v
theories/Path_Proofs.v
theories/Properties_Path.v
theories/Label_Model.v
theories/Label_Spec.v
theories/Label_Proofs.v
theories/Properties_Label.v
theories/Guard_Model.v
theories/Guard_Spec.v
theories/Guard_Proofs.v
theories/Properties_Guard.v
