-Q theories Verif
theories/PyBase.v
theories/Result_Model.v
theories/Result_Spec.v
theories/Result_Proofs.v
theories/Result_Props.v
theories/Graph_Model.v
theories/Graph_Spec.v
theories/Graph_Proofs.v
theories/Graph_Objects.v
theories/Graph_Merge.v
theories/Graph_Normalize.v
theories/Graph_Build.v
theories/Graph_Props.v
theories/Merge_Props.v
theories/Build_Props.v
theories/Path_Model.v
theories/Cache_Model.v
theories/Cache_Spec.v
theories/Cache_Proofs.v
theories/Cache_Props.v
theories/Module_Model.v
theories/Module_Props.v
theories/Driver_Model.v
theories/Driver_Spec.v
theories/Driver_Proofs.v
theories/Driver_Props.v
theories/Snapshot_Model.v
theories/Snapshot_Spec.v
theories/Snapshot_Proofs.v
theories/Snapshot_Props.v
theories/Compare_Model.v
theories/Compare_Spec.v
theories/Compare_Proofs.v
theories/Compare_Props.v
theories/Config_Model.v
theories/Config_Spec.v
theories/Config_Proofs.v
theories/Config_Props.v
theories/Syndiff_Model.v
theories/Syndiff_Spec.v
theories/Syndiff_Proofs.v
theories/Syndiff_Props.v
theories/Output_Model.v
theories/Output_Spec.v
theories/Output_Proofs.v
theories/Output_Props.v
theories/Wrapper_Model.v
theories/Wrapper_Spec.v
theories/Wrapper_Proofs.v
theories/Wrapper_Props.v
theories/Kernel_Model.v
theories/Kernel_Spec.v
theories/Kernel_Proofs.v
theories/Kernel_Props.v
theories/Source_Model.v
theories/Source_Spec.v
theories/Source_Proofs.v
theories/Source_Props.v
theories/Sysctl_Model.v
theories/Sysctl_Spec.v
theories/Sysctl_Proofs.v
theories/Sysctl_Props.v
theories/Modcomp_Model.v
theories/Modcomp_Spec.v
theories/Modcomp_Proofs.v
theories/Modcomp_Props.v
theories/Text_Spec.v
theories/Text_Props.v
theories/Funcomp_Model.v
theories/Funcomp_Spec.v
theories/Funcomp_Log.v
theories/Funcomp_Reloc.v
theories/Funcomp_Inv.v
theories/Funcomp_Visit.v
theories/Funcomp_Walk.v
theories/Funcomp_Sim.v
theories/Funcomp_Fuel.v
theories/Funcomp_Copy.v
theories/Funcomp_Check.v
theories/Funcomp_Straight.v
theories/Funcomp_Reorder.v
theories/Funcomp_Loads.v
theories/Funcomp_Inverse.v
theories/Funcomp_Visible.v
theories/Funcomp_Skip.v
theories/Funcomp_Numbers.v
theories/Funcomp_Props.v
theories/Slice_Model.v
theories/Slice_Spec.v
theories/Slice_Effect.v
theories/Slice_Control.v
theories/Slice_Run.v
theories/Slice_Reach.v
theories/Slice_Variable.v
theories/Slice_Whole.v
theories/Slice_Result.v
theories/Slice_Phi.v
theories/Slice_Props.v
theories/Passes_Model.v
theories/Passes_Spec.v
theories/Passes_Sim.v
theories/Passes_Merge.v
theories/Passes_Runs.v
theories/Passes_Called.v
theories/Passes_Abstract.v
theories/Passes_Void.v
theories/Passes_Calls.v
theories/Passes_Asserts.v
theories/Passes_Props.v
theories/Pattern_Model.v
theories/Pattern_Spec.v
theories/Pattern_Frame.v
theories/Pattern_Find.v
theories/Pattern_Sides.v
theories/Pattern_Load.v
theories/Pattern_Props.v
theories/Layout_Model.v
theories/Layout_Spec.v
theories/Layout_Fields.v
theories/Layout_Geps.v
theories/Layout_Noted.v
theories/Layout_Macros.v
theories/Layout_Props.v
theories/Access_Model.v
theories/Access_Spec.v
theories/Access_Chain.v
theories/Access_Numbers.v
theories/Access_Calls.v
theories/Access_Props.v
theories/Types_Model.v
theories/Types_Spec.v
theories/Types_Types.v
theories/Types_Constants.v
theories/Types_Fuel.v
theories/Types_Reads.v
theories/Types_Props.v
theories/Copy_Model.v
theories/Copy_Spec.v
theories/Copy_Text.v
theories/Copy_Files.v
theories/Copy_Props.v
theories/Param_Model.v
theories/Param_Spec.v
theories/Param_Props.v
theories/Log_Model.v
theories/Log_Spec.v
theories/Log_Props.v
theories/Info_Model.v
theories/Info_Spec.v
theories/Info_Proofs.v
theories/Info_Props.v
theories/Show_Model.v
theories/Show_Spec.v
theories/Show_Proofs.v
theories/Show_Props.v
theories/Report_Model.v
theories/Report_Spec.v
theories/Report_Proofs.v
theories/Report_Props.v
theories/Find_Model.v
theories/Find_Spec.v
theories/Find_Proofs.v
theories/Find_Props.v
theories/Bitcast_Model.v
theories/Bitcast_Spec.v
theories/Bitcast_Proofs.v
theories/Bitcast_Props.v
theories/Csource_Model.v
theories/Csource_Spec.v
theories/Csource_Proofs.v
theories/Csource_Props.v
theories/Reason_Model.v
theories/Reason_Spec.v
theories/Reason_Proofs.v
theories/Reason_Props.v
theories/Llreve_Model.v
theories/Llreve_Spec.v
theories/Llreve_Proofs.v
theories/Llreve_Props.v
theories/Ident_Model.v
theories/Ident_Spec.v
theories/Ident_Proofs.v
theories/Ident_Props.v
theories/Start_Model.v
theories/Start_Spec.v
theories/Start_Proofs.v
theories/Start_Props.v
theories/Modcache_Model.v
theories/Modcache_Spec.v
theories/Modcache_Proofs.v
theories/Modcache_Props.v
theories/Codeview_Model.v
theories/Codeview_Spec.v
theories/Codeview_Proofs.v
theories/Codeview_Props.v
theories/Cscope_Model.v
theories/Cscope_Spec.v
theories/Cscope_Proofs.v
theories/Cscope_Props.v
theories/Trim_Model.v
theories/Trim_Spec.v
theories/Trim_Run.v
theories/Trim_Proofs.v
theories/Trim_Whole.v
theories/Trim_Slice.v
theories/Trim_Void.v
theories/Trim_Props.v
theories/Stores_Spec.v
theories/Stores_Proof.v
theories/Stores_Props.v
theories/Ksym_Model.v
theories/Ksym_Spec.v
theories/Ksym_Proof.v
theories/Ksym_Props.v
theories/Inst_Model.v
theories/Inst_Spec.v
theories/Inst_Props.v
theories/Patload_Model.v
theories/Patload_Props.v
theories/Handles_Model.v
theories/Handles_Spec.v
theories/Handles_Proof.v
theories/Handles_Props.v
theories/Moddiff_Model.v
theories/Moddiff_Spec.v
theories/Moddiff_Proof.v
theories/Moddiff_Props.v
theories/Attrs_Model.v
theories/Attrs_Props.v
