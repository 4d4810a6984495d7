-Q theories Verif
theories/Base.v
theories/Lib.v
theories/Model_Driver.v
theories/Model_Files.v
theories/Model_Input.v
theories/Model_Interp.v
theories/Model_Json.v
theories/Model_Label.v
theories/Model_Lexer.v
theories/Model_Main.v
theories/Model_Parser.v
theories/Model_Produce.v
theories/Model_Props.v
theories/Model_Reader.v
theories/Model_Stats.v
theories/Model_Struct.v
theories/Model_System.v
theories/Model_Utils.v
theories/Model_Zone.v
theories/Proofs_Case.v
theories/Proofs_Class.v
theories/Proofs_Class2.v
theories/Proofs_Class3.v
theories/Proofs_Driver.v
theories/Proofs_Edit.v
theories/Proofs_Edit2.v
theories/Proofs_Files.v
theories/Proofs_Input.v
theories/Proofs_Interp.v
theories/Proofs_Interp2.v
theories/Proofs_Interp3.v
theories/Proofs_Interp4.v
theories/Proofs_Jobs.v
theories/Proofs_Json.v
theories/Proofs_Json2.v
theories/Proofs_Label.v
theories/Proofs_Label2.v
theories/Proofs_Label3.v
theories/Proofs_Label4.v
theories/Proofs_Label5.v
theories/Proofs_Lexer.v
theories/Proofs_Lexer2.v
theories/Proofs_Lint.v
theories/Proofs_Lint2.v
theories/Proofs_Loaded.v
theories/Proofs_Member.v
theories/Proofs_Order.v
theories/Proofs_Order2.v
theories/Proofs_Parser.v
theories/Proofs_Parser2.v
theories/Proofs_Parser3.v
theories/Proofs_Parser4.v
theories/Proofs_Parser5.v
theories/Proofs_Parser6.v
theories/Proofs_Parser7.v
theories/Proofs_Parser8.v
theories/Proofs_Paths.v
theories/Proofs_Perm.v
theories/Proofs_Perm2.v
theories/Proofs_Perm3.v
theories/Proofs_Produce.v
theories/Proofs_Props.v
theories/Proofs_Props2.v
theories/Proofs_Props3.v
theories/Proofs_Props4.v
theories/Proofs_Props5.v
theories/Proofs_Props6.v
theories/Proofs_Reach.v
theories/Proofs_Reader.v
theories/Proofs_Reader2.v
theories/Proofs_Reader3.v
theories/Proofs_Report.v
theories/Proofs_Report2.v
theories/Proofs_Retype.v
theories/Proofs_Run.v
theories/Proofs_Same.v
theories/Proofs_Stats.v
theories/Proofs_Stats2.v
theories/Proofs_Stop.v
theories/Proofs_Struct.v
theories/Proofs_System.v
theories/Proofs_Threads.v
theories/Proofs_Threads2.v
theories/Proofs_Trace.v
theories/Proofs_Trace2.v
theories/Proofs_Utf8.v
theories/Proofs_Utils.v
theories/Proofs_Zone.v
theories/Proofs_Zone2.v
theories/Proofs_Zone3.v
theories/Proofs_ZoneLookup.v
theories/Proofs_ZoneTree.v
theories/Properties_Case.v
theories/Properties_Class.v
theories/Properties_Clean.v
theories/Properties_Default.v
theories/Properties_Driver.v
theories/Properties_Edit.v
theories/Properties_Ending.v
theories/Properties_Fault.v
theories/Properties_Files.v
theories/Properties_Input.v
theories/Properties_Interp.v
theories/Properties_Jobs.v
theories/Properties_Label.v
theories/Properties_Limits.v
theories/Properties_Lint.v
theories/Properties_Nest.v
theories/Properties_Order.v
theories/Properties_Parser.v
theories/Properties_Paths.v
theories/Properties_Perm.v
theories/Properties_Places.v
theories/Properties_Produce.v
theories/Properties_Props.v
theories/Properties_Props2.v
theories/Properties_Reach.v
theories/Properties_Reader.v
theories/Properties_Report.v
theories/Properties_Run.v
theories/Properties_Split.v
theories/Properties_Stats.v
theories/Properties_Stop.v
theories/Properties_Struct.v
theories/Properties_System.v
theories/Properties_Trace.v
theories/Properties_Types.v
theories/Properties_Utils.v
theories/Properties_Whole.v
theories/Properties_Zone.v
theories/Spec_Case.v
theories/Spec_Class.v
theories/Spec_Clean.v
theories/Spec_Driver.v
theories/Spec_Edit.v
theories/Spec_Ending.v
theories/Spec_Fault.v
theories/Spec_Files.v
theories/Spec_Input.v
theories/Spec_Interp.v
theories/Spec_Jobs.v
theories/Spec_Json.v
theories/Spec_Label.v
theories/Spec_Lexer.v
theories/Spec_Limits.v
theories/Spec_Lint.v
theories/Spec_Loaded.v
theories/Spec_Order.v
theories/Spec_Parser.v
theories/Spec_Paths.v
theories/Spec_Perm.v
theories/Spec_Produce.v
theories/Spec_Props.v
theories/Spec_Reach.v
theories/Spec_Reader.v
theories/Spec_Report.v
theories/Spec_Run.v
theories/Spec_Stats.v
theories/Spec_Stop.v
theories/Spec_Struct.v
theories/Spec_System.v
theories/Spec_Threads.v
theories/Spec_Trace.v
theories/Spec_Types.v
theories/Spec_Utils.v
theories/Spec_Zone.v
theories/Tests_Conformance.v
