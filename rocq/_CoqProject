-Q theories Verif

theories/Model_Base.v
theories/Model_Named.v
theories/Spec_Tree.v
theories/Model_World.v
theories/Spec_World.v
theories/Proof_Named.v
theories/Props_Named.v
theories/Proof_Tree.v
theories/Proof_World.v
theories/Proof_World2.v
theories/Proof_World3.v
theories/Proof_Dofs.v
theories/Proof_Register.v
theories/Proof_World4.v
theories/Props_World.v
theories/Model_Linalg.v
theories/Model_Hg.v
theories/Spec_SE3.v
theories/Proof_Linalg.v
theories/Proof_Deriv.v
theories/Proof_SE3.v
theories/Props_SE3.v
theories/Proof_Exp.v
theories/Proof_Exp2.v
theories/Props_Exp.v
theories/Proof_Angles.v
theories/Props_Angles.v
theories/Model_Joints.v
theories/Spec_Joints.v
theories/Proof_Joints.v
theories/Props_Joints.v
theories/Model_Dyn.v
theories/Spec_Dyn.v
theories/Proof_Dyn.v
theories/Proof_Dyn2.v
theories/Props_Dyn.v
theories/Props_DynEx.v
theories/Model_Mass.v
theories/Spec_Mass.v
theories/Proof_Mass.v
theories/Props_Mass.v
theories/Model_Step.v
theories/Spec_Step.v
theories/Proof_Matrix.v
theories/Proof_Step.v
theories/Proof_Con.v
theories/Props_Step.v
theories/Model_Con.v
theories/Spec_Con.v
theories/Proof_Cons.v
theories/Proof_Eig.v
theories/Props_Con.v
theories/Props_Finger.v
theories/Props_Contact.v
theories/Model_Ctl.v
theories/Spec_Ctl.v
theories/Proof_Ctl.v
theories/Props_Ctl.v
theories/Props_Weight.v
theories/Props_Energy.v
theories/Props_EnergyEx.v
theories/Model_Coll.v
theories/Spec_Coll.v
theories/Proof_Coll.v
theories/Props_Coll.v
theories/Props_Coll2.v
theories/Model_CoM.v
theories/Model_Sim.v
theories/Spec_Sim.v
theories/Proof_Sim.v
theories/Props_Sim.v
theories/Proof_Sim2.v
theories/Proof_Sim3.v
theories/Proof_Sim4.v
theories/Proof_Sim5.v
theories/Proof_Sim6.v
theories/Props_Sim2.v
theories/Props_Sim3.v
theories/Props_Sim4.v
theories/Props_Sim5.v
theories/Spec_CoM.v
theories/Props_CoM.v
theories/Props_CoMEx.v
theories/Model_Color.v
theories/Props_Color.v
theories/Props_Color2.v
theories/Model_Draw.v
theories/Spec_Draw.v
theories/Proof_Draw.v
theories/Proof_Draw2.v
theories/Props_Draw.v
theories/Props_Draw2.v
theories/Props_Draw3.v
theories/Props_Draw4.v
theories/Model_Robots.v
theories/Spec_Robots.v
theories/Proof_Robots.v
theories/Proof_Robots2.v
theories/Proof_Robots3.v
theories/Props_Robots.v
theories/Props_Robots2.v
theories/Model_Urdf.v
theories/Spec_Urdf.v
theories/Proof_Urdf.v
theories/Proof_Urdf2.v
theories/Proof_Urdf3.v
theories/Props_Urdf.v
theories/Props_Urdf2.v
theories/Props_Urdf3.v
theories/Model_Build.v
theories/Spec_Build.v
theories/Proof_Build.v
theories/Proof_Build2.v
theories/Proof_Build3.v
theories/Model_Human36.v
theories/Spec_Human36.v
theories/Proof_Human36.v
theories/Props_Human36.v
theories/Props_Human36_2.v
theories/Props_Human36_3.v
theories/Props_Human36_4.v
theories/Proof_Spectral.v
theories/Props_Checks.v
theories/Model_Arm.v
theories/Spec_Arm.v
theories/Props_Arm.v
theories/Props_Arm2.v
theories/Props_Lone.v
theories/Props_Con2.v
theories/Props_Coll3.v
theories/Model_Icub.v
theories/Spec_Icub.v
theories/Proof_Icub.v
theories/Props_Icub.v
theories/Props_Icub2.v
theories/Props_Icub3.v
theories/Props_Icub4.v
theories/Props_Icub5.v
theories/Props_Icub6.v
theories/Model_Dae.v
theories/Spec_Dae.v
theories/Proof_Dae.v
theories/Proof_Dae2.v
theories/Proof_Dae3.v
theories/Proof_Dae4.v
theories/Proof_Dae5.v
theories/Proof_Dae6.v
theories/Props_Dae.v
theories/Props_Dae2.v
theories/Props_Dae3.v
theories/Props_Dae4.v
theories/Props_Dae5.v
theories/Model_Anim.v
theories/Spec_Anim.v
theories/Proof_Anim.v
theories/Proof_Anim2.v
theories/Props_Sim6.v
theories/Props_Anim.v
theories/Props_Anim2.v
theories/Model_File.v
theories/Spec_File.v
theories/Proof_File.v
theories/Props_File.v
theories/Model_Com.v
theories/Spec_Com.v
theories/Proof_Com.v
theories/Props_Com.v
theories/Props_Com2.v
theories/Props_Com3.v
theories/Spec_Defect.v
theories/Proof_Defect.v
theories/Props_Defect.v
theories/Props_Defect2.v
theories/Props_Defect3.v
theories/Model_Mem.v
theories/Spec_Mem.v
theories/Proof_Mem.v
theories/Proof_Mem2.v
theories/Proof_Mem3.v
theories/Proof_Mem4.v
theories/Proof_Mem5.v
theories/Props_Mem.v
theories/Props_Mem2.v
theories/Props_Human36_5.v
theories/Model_Matlab.v
theories/Spec_Matlab.v
theories/Proof_Matlab.v
theories/Proof_Matlab2.v
theories/Proof_Matlab3.v
theories/Props_Matlab.v
theories/Props_Matlab2.v
theories/Props_Matlab3.v
theories/Model_Convert.v
theories/Spec_Convert.v
theories/Proof_Convert.v
theories/Proof_Convert2.v
theories/Proof_Convert3.v
theories/Proof_Convert4.v
theories/Props_Convert.v
theories/Props_Convert2.v
theories/Props_Convert3.v
theories/Props_Convert4.v
theories/Model_UrdfXml.v
theories/Spec_UrdfXml.v
theories/Props_UrdfXml.v
theories/Props_UrdfXml2.v
theories/Props_UrdfXml3.v
theories/Props_UrdfXml4.v
theories/Model_UrdfShapes.v
theories/Spec_UrdfShapes.v
theories/Props_UrdfShapes.v
theories/Props_UrdfShapes2.v
theories/Model_AddShapes.v
theories/Spec_AddShapes.v
theories/Proof_AddShapes.v
theories/Props_AddShapes.v
theories/Props_AddShapes2.v
theories/Spec_Resume.v
theories/Proof_Resume.v
theories/Proof_Resume2.v
theories/Props_Resume.v
theories/Model_Perf.v
theories/Props_Perf.v
theories/Spec_Move.v
theories/Proof_Move.v
theories/Proof_Move2.v
theories/Proof_Move3.v
theories/Props_Move.v
theories/Spec_Rest.v
theories/Props_Rest.v
theories/Spec_Apart.v
theories/Proof_Apart.v
theories/Proof_Apart2.v
theories/Proof_Apart3.v
theories/Props_Apart.v
theories/Props_Apart2.v
theories/Spec_Order.v
theories/Props_Order.v
theories/Spec_Start.v
theories/Props_Start.v
theories/Spec_Units.v
theories/Props_Units.v
theories/Spec_Decor.v
theories/Props_Decor.v
theories/Spec_Disabled.v
theories/Props_Disabled.v
theories/Spec_Gravity.v
theories/Props_Gravity.v
