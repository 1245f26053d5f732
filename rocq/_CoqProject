-Q theories Verif
theories/Num.v
theories/Res.v
theories/Name.v
theories/Store.v
theories/Leaf.v
theories/Sched.v
theories/Stepper.v
theories/Sim.v
theories/World.v
theories/Hist.v
theories/Visit.v
theories/NumR.v
theories/NumQ.v
theories/NumF.v
theories/P_Name.v
theories/SpecName.v
theories/P_Store.v
theories/SpecStore.v
theories/Util.v
theories/P_Prog.v
theories/SpecSched.v
theories/P_Sched.v
theories/P_Modes.v
theories/P_Conf.v
theories/Api.v
theories/Ex_Models.v
theories/Ex_Tests.v
theories/P_Refine.v
theories/P_Eval.v
theories/SpecBlock.v
theories/P_Lib.v
theories/P_Fast.v
theories/Steps.v
theories/P_Steps.v
theories/P_Ops.v
theories/P_World.v
theories/P_Compile.v
theories/Props_Signal.v
theories/P_Sim.v
theories/P_Evolve.v
theories/SpecSim.v
theories/P_Simulated.v
theories/Props_Sched.v
theories/P_Rel.v
theories/P_Rel2.v
theories/Props_Sched2.v
theories/Props_Sched3.v
theories/Props_World.v
theories/P_Frame.v
theories/Props_Tree.v
theories/Props_Wait.v
theories/Props_Forest.v
theories/SpecHist.v
theories/P_Trace.v
theories/P_Life.v
theories/Ex_Hist.v
theories/Props_Block.v
theories/NumOrd.v
theories/P_Delay.v
theories/Props_Delay.v
theories/SpecRun.v
theories/P_Log.v
theories/NumAdd.v
theories/P_Run.v
theories/Props_Run.v
theories/P_Pack.v
theories/P_Grow.v
theories/P_Again.v
theories/P_Repeat.v
theories/Props_Pack.v
theories/SpecRK.v
theories/P_RK.v
theories/P_Perm.v
theories/Props_RK.v
theories/SpecRec.v
theories/P_Rec.v
theories/Props_Rec.v
theories/SpecBus.v
theories/P_Bus.v
theories/P_Build.v
theories/Props_Bus.v
theories/P_Term.v
theories/Props_Term.v
theories/SpecAgain.v
theories/P_Over.v
theories/P_Redo.v
theories/Props_Again.v
theories/P_Both.v
theories/P_Fast2.v
theories/P_FastRun.v
theories/Props_Fast.v
theories/SpecField.v
theories/P_Field.v
theories/P_FieldRun.v
theories/P_Posed.v
theories/P_Path.v
theories/Props_Field.v
theories/Props_User.v
theories/SpecConv.v
theories/P_Conv.v
theories/Props_Conv.v
theories/SpecLin.v
theories/P_Lin.v
theories/Props_Lin.v
theories/SpecCalls.v
theories/Props_Calls.v
theories/SpecSized.v
theories/P_Sized.v
theories/Props_Sized.v
theories/SpecOrder.v
theories/P_Order.v
theories/P_Order2.v
theories/Props_Order.v
theories/Props_Hang.v
theories/Own.v
theories/SpecOwn.v
theories/P_Own.v
theories/Props_Own.v
theories/SpecFail.v
theories/P_Fail.v
theories/Props_Fail.v
theories/P_Bound.v
theories/SpecSafe.v
theories/P_Safe.v
theories/P_Safe2.v
theories/P_Safe3.v
theories/Props_Safe.v
theories/P_Port.v
theories/Props_Port.v
theories/SpecOrd.v
theories/P_Ord.v
theories/P_Ord2.v
theories/P_Ord3.v
theories/Props_Ord.v
theories/SpecSmooth.v
theories/P_Tame.v
theories/P_Tame2.v
theories/P_Tame3.v
theories/P_Smooth.v
theories/Props_Smooth.v
theories/Dead.v
theories/P_Dead.v
theories/P_Dead2.v
theories/Props_Dead.v
theories/SpecDiag.v
theories/P_Diag.v
theories/P_Diag2.v
theories/Props_Diag.v
theories/Samples.v
theories/Samples2.v
theories/Samples3.v
theories/Samples4.v
theories/Props_Samples.v
theories/P_Picard.v
theories/SpecExist.v
theories/P_Exist.v
theories/Props_Exist.v
theories/SpecGoes.v
theories/P_Goes.v
theories/P_Goes2.v
theories/P_Goes3.v
theories/P_Goes4.v
theories/SpecGoes2.v
theories/P_Goes5.v
theories/SpecLint.v
theories/P_Lint.v
theories/P_Goes6.v
theories/Props_Goes.v
theories/P_Total.v
theories/Props_Total.v
theories/P_Same.v
theories/P_Same2.v
theories/P_Same3.v
theories/Props_Same.v
theories/P_Junk.v
theories/Props_Junk.v
theories/Trace.v
theories/SpecTrace.v
theories/Props_Trace.v
theories/SpecSess.v
theories/P_Sess.v
theories/Props_Sess.v
theories/SpecTable.v
theories/P_Table.v
theories/Props_Table.v
theories/SpecRows.v
theories/P_Rows.v
theories/Props_Rows.v
theories/Samples5.v
theories/Props_Files.v
theories/Samples6.v
theories/Props_Tut.v
theories/Samples7.v
theories/Props_Main.v
theories/P_Diff.v
theories/Props_Diff.v
theories/Props_Round.v
