-Q theories Verif
theories/Lib/Py.v
theories/Lib/ListFacts.v
theories/Lib/Num.v
theories/Lib/QcFacts.v
theories/Lib/LinAlg.v
theories/Lib/Fld.v
theories/Lib/Sparse.v
theories/Model/Idx.v
theories/Model/Ext2int.v
theories/Spec/CaseSpec.v
theories/Proofs/Ext2intA.v
theories/Proofs/Ext2intB.v
theories/Proofs/Ext2intC.v
theories/Proofs/Ext2intD.v
theories/Props/ExCase.v
theories/Props/P_Ext2int.v
theories/Model/Userfcn.v
theories/Proofs/Userfcn.v
theories/Props/P_Userfcn.v
theories/Model/Loadcase.v
theories/Props/P_Loadcase.v
theories/Model/OpfModel.v
theories/Spec/OmSpec.v
theories/Proofs/LinAlgFacts.v
theories/Proofs/OpfModelA.v
theories/Proofs/OpfModelB.v
theories/Proofs/OpfModelC.v
theories/Props/P_OpfModel.v
theories/Model/Cost.v
theories/Spec/CostSpec.v
theories/Spec/RealSpec.v
theories/Proofs/CostA.v
theories/Proofs/CostB.v
theories/Proofs/CostC.v
theories/Proofs/CostR.v
theories/Props/P_Cost.v
theories/Model/Network.v
theories/Model/AcNet.v
theories/Spec/NetSpec.v
theories/Spec/AcSpec.v
theories/Proofs/SparseFacts.v
theories/Proofs/NetworkA.v
theories/Proofs/NetworkB.v
theories/Proofs/NetworkC.v
theories/Proofs/NetworkD.v
theories/Proofs/NetworkE.v
theories/Proofs/FldFacts.v
theories/Proofs/YbusA.v
theories/Proofs/PtdfA.v
theories/Proofs/PtdfB.v
theories/Props/P_Network.v
theories/Props/P_Ptdf.v
theories/Props/P_Ybus.v
theories/Model/Derivs.v
theories/Spec/AcDeriv.v
theories/Proofs/MatFacts.v
theories/Proofs/DerivA.v
theories/Proofs/DerivR.v
theories/Proofs/DerivS.v
theories/Props/P_Derivs.v
theories/Model/AcPf.v
theories/Spec/PfSpec.v
theories/Proofs/AcPfA.v
theories/Proofs/AcPfB.v
theories/Proofs/PfsolnA.v
theories/Proofs/PfsolnB.v
theories/Proofs/PfsolnC.v
theories/Proofs/AcPfC.v
theories/Props/P_AcPf.v
theories/Lib/Ext.v
theories/Lib/GaussQ.v
theories/Model/Pips.v
theories/Spec/PipsSpec.v
theories/Spec/PipsRun.v
theories/Proofs/OrdFacts.v
theories/Proofs/BlockFacts.v
theories/Proofs/PipsA.v
theories/Proofs/PipsB.v
theories/Proofs/PipsC.v
theories/Proofs/PipsD.v
theories/Proofs/PipsE.v
theories/Proofs/PipsF.v
theories/Proofs/PipsG.v
theories/Proofs/PipsH.v
theories/Proofs/PipsI.v
theories/Props/P_Pips.v
theories/Props/P_PipsOpt.v
theories/Model/OpfLin.v
theories/Model/DcOpf.v
theories/Model/OpfFcn.v
theories/Model/AcOpf.v
theories/Spec/OpfSpec.v
theories/Spec/DcSpec.v
theories/Spec/AcOpfSpec.v
theories/Proofs/OpfLinA.v
theories/Proofs/OpfLinB.v
theories/Proofs/OpfLinC.v
theories/Proofs/TableEdit.v
theories/Proofs/DcOpfA.v
theories/Proofs/DcOpfB.v
theories/Proofs/DcOpfC.v
theories/Proofs/DcOpfD.v
theories/Proofs/DcOpfE.v
theories/Proofs/DcOpfF.v
theories/Proofs/DcOpfG.v
theories/Proofs/DcOpfH.v
theories/Proofs/DcOpfI.v
theories/Proofs/DcOpfJ.v
theories/Props/P_OpfLin.v
theories/Props/P_DcOpf.v
theories/Props/P_DcOpt.v
theories/Proofs/AcCostA.v
theories/Proofs/AcCostB.v
theories/Proofs/AcCostC.v
theories/Proofs/AcCostR.v
theories/Props/P_OpfFcn.v
theories/Spec/AcConSpec.v
theories/Proofs/AcConA.v
theories/Proofs/AcConB.v
theories/Proofs/AcConR.v
theories/Props/P_OpfCon.v
theories/Proofs/AcHessA.v
theories/Proofs/AcHessR.v
theories/Props/P_OpfHess.v
theories/Spec/AcOptSpec.v
theories/Proofs/AcOptA.v
theories/Proofs/AcOptB.v
theories/Proofs/AcOptC.v
theories/Proofs/AcOptD.v
theories/Proofs/AcOptE.v
theories/Proofs/AcOptF.v
theories/Props/P_AcOpf.v
theories/Proofs/AcPriceA.v
theories/Props/P_AcPrice.v
theories/Model/Loads.v
theories/Spec/LoadSpec.v
theories/Proofs/LoadsA.v
theories/Proofs/LoadsB.v
theories/Props/P_Loads.v
theories/Model/Uopf.v
theories/Spec/UopfSpec.v
theories/Props/P_Uopf.v
theories/Model/DcLine.v
theories/Spec/DcLineSpec.v
theories/Proofs/DcLineA.v
theories/Props/P_DcLine.v
theories/Model/Iflims.v
theories/Spec/IflimsSpec.v
theories/Props/P_Iflims.v
theories/Model/Qlim.v
theories/Props/P_Qlim.v
theories/Model/Cpf.v
theories/Spec/NewtonSpec.v
theories/Proofs/NewtonA.v
theories/Props/P_Newton.v
theories/Spec/CpfSpec.v
theories/Proofs/CpfA.v
theories/Proofs/CpfB.v
theories/Proofs/CpfC.v
theories/Proofs/CpfD.v
theories/Props/P_Cpf.v
theories/Props/P_CpfTables.v
theories/Spec/CpfStepSpec.v
theories/Props/P_CpfStep.v
theories/Model/RunPf.v
theories/Spec/RunSpec.v
theories/Proofs/RunPfA.v
theories/Proofs/RunPfB.v
theories/Props/P_RunPf.v
theories/Props/P_CpfAdapt.v
theories/Spec/RunOpfSpec.v
theories/Spec/PriceSpec.v
theories/Spec/ScheduleSpec.v
theories/Model/RunOpf.v
theories/Proofs/RunOpfA.v
theories/Proofs/RunOpfB.v
theories/Proofs/RunOpfC.v
theories/Proofs/RunOpfD.v
theories/Props/P_RunOpf.v
theories/Model/Reserves.v
theories/Spec/ReserveSpec.v
theories/Proofs/ReserveA.v
theories/Proofs/ReserveB.v
theories/Proofs/ReserveC.v
theories/Proofs/ReserveD.v
theories/Proofs/ReserveE.v
theories/Proofs/ReserveF.v
theories/Props/P_Reserves.v
theories/Props/P_ReservePrice.v
theories/Model/RunAcOpf.v
theories/Spec/RunAcOpfSpec.v
theories/Proofs/RunAcOpfA.v
theories/Proofs/RunAcOpfB.v
theories/Proofs/RunAcOpfC.v
theories/Props/P_RunAcOpf.v
theories/Model/PrintPf.v
theories/Spec/PrintSpec.v
theories/Proofs/PrintA.v
theories/Proofs/PrintB.v
theories/Proofs/PrintC.v
theories/Proofs/PrintD.v
theories/Proofs/PrintE.v
theories/Proofs/PrintF.v
theories/Proofs/PrintG.v
theories/Proofs/PrintH.v
theories/Proofs/PrintI.v
theories/Props/P_PrintPf.v
theories/Props/P_RunPrice.v
theories/Proofs/Schedule.v
theories/Props/P_RunBest.v
theories/Model/OpfArgs.v
theories/Spec/CallSpec.v
theories/Props/P_OpfArgs.v
theories/Model/Cases.v
theories/Proofs/CasesA.v
theories/Props/P_Cases.v
theories/Spec/FlowSpec.v
theories/Proofs/FlowA.v
theories/Proofs/CasesTrees.v
theories/Proofs/CasesB.v
theories/Props/P_Flow.v
theories/Model/Dispatch.v
theories/Spec/DispatchSpec.v
theories/Props/P_Dispatch.v
theories/Spec/SameSpec.v
theories/Proofs/SameA.v
theories/Props/P_Same.v
theories/Spec/BlendSpec.v
theories/Proofs/BlendA.v
theories/Props/P_Blend.v
theories/Model/IntTables.v
theories/Proofs/IntA.v
theories/Props/P_IntTables.v
theories/Model/Savecase.v
theories/Spec/SaveSpec.v
theories/Proofs/SaveA.v
theories/Proofs/SaveB.v
theories/Props/P_Savecase.v
theories/Model/Main.v
theories/Spec/MainSpec.v
theories/Props/P_Main.v
theories/Props/P_Again.v
theories/Props/P_Lossless.v
theories/Model/Poly2pwl.v
theories/Props/P_Poly2pwl.v
theories/Model/QpsExt.v
theories/Props/P_QpsExt.v
theories/Model/Sub2ind.v
theories/Props/P_Sub2ind.v
theories/Model/IpoptOpf.v
theories/Proofs/IpoptA.v
theories/Proofs/IpoptB.v
theories/Proofs/IpoptC.v
theories/Proofs/IpoptD.v
theories/Proofs/IpoptE.v
theories/Props/P_Ipopt.v
theories/Props/P_IpoptCon.v
theories/Model/IpoptRes.v
theories/Props/P_IpoptRes.v
theories/Props/P_Pqcost.v
theories/Model/Nested.v
theories/Props/P_Nested.v
theories/Props/P_LoadForms.v
theories/Props/P_CostRows.v
theories/Props/P_OpfNamed.v
