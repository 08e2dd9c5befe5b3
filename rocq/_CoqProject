-Q theories Verif
theories/Base.v
theories/Spec.v
theories/LitModel.v
theories/LitProofs.v
theories/C08_Lit.v
theories/LubyModel.v
theories/LubyProofs.v
theories/C33_Luby.v
theories/EmaModel.v
theories/EmaProofs.v
theories/C35_Ema.v
theories/HeapModel.v
theories/HeapProofs.v
theories/HeapOrder.v
theories/C37_Heap.v
theories/Text.v
theories/CertModel.v
theories/C31_Cert.v
theories/CnfModel.v
theories/C10_Cnf.v
theories/AsgModel.v
theories/LitFacts.v
theories/AsgProofs.v
theories/C15_Trail.v
theories/SatSpec.v
theories/CdbModel.v
theories/CdbProofs.v
theories/CdbOps.v
theories/C21_Db.v
theories/C20_Lbd.v
theories/C24_Simplify.v
theories/PropModel.v
theories/PropProofs.v
theories/PropLoop.v
theories/PropOps.v
theories/PropDb.v
theories/RootProofs.v
theories/RupSpec.v
theories/DratSpec.v
theories/DratRun.v
theories/ConflictModel.v
theories/ConflictProofs.v
theories/LogProofs.v
theories/HandleProofs.v
theories/DratOps.v
theories/DratRoot.v
theories/DratSearch.v
theories/PropMisc.v
theories/C12_Prop.v
theories/C17_Conflict.v
theories/BuildModel.v
theories/BuildProofs.v
theories/C04_Build.v
theories/ElimModel.v
theories/ElimFacts.v
theories/ElimExt.v
theories/ElimProofs.v
theories/ElimVar.v
theories/ElimRun.v
theories/VivifyModel.v
theories/VivifyProofs.v
theories/DratElim.v
theories/DratViv.v
theories/QuietProofs.v
theories/ElimTotal.v
theories/C25_Elim.v
theories/C28_Vivify.v
theories/SolveModel.v
theories/SavProofs.v
theories/ErrProofs.v
theories/SolveProofs.v
theories/C01_Solve.v
theories/DratLoad.v
theories/DratPure.v
theories/DratSolve.v
theories/C49_Drat.v
theories/TermProofs.v
theories/C50_Term.v
theories/QueueModel.v
theories/QueueProofs.v
theories/QueueRun.v
theories/KSolveModel.v
theories/KSolveProofs.v
theories/C52_Queue.v
theories/C51_Bug.v
theories/ToolModel.v
theories/C53_Tools.v
theories/C54_Dump.v
theories/C46_AddVar.v
theories/CliModel.v
theories/C55_Cli.v
theories/C57_Count.v
theories/C22_Run.v
theories/C58_Anytime.v
theories/FloatModel.v
theories/C35_Float.v
theories/C59_Activity.v
theories/C60_Restart.v
theories/C61_Reduce.v
theories/C62_Timeout.v
theories/C63_Header.v
theories/RephaseModel.v
theories/RephaseProofs.v
theories/C64_Rephase.v
theories/SlsModel.v
theories/C65_Sls.v
theories/C51_Limit.v
theories/BiModel.v
theories/C66_Bi.v
theories/C67_Flags.v
theories/C68_Entangle.v
theories/C34_Schedule.v
theories/C69_Stages.v
theories/C33_Machine.v
