-Q theories Verif
theories/Base.v
theories/Ext.v
theories/M_Tableau.v
theories/M_State.v
theories/M_ODE.v
theories/M_Step.v
theories/SpecRK.v
theories/SpecShape.v
theories/SpecDeriv.v
theories/L_Vec.v
theories/L_Step.v
theories/L_Adjoint.v
theories/L_Deriv.v
theories/L_Tableau.v
theories/Witness.v
theories/L_StepProps.v
theories/Properties_Step.v
theories/M_Controller.v
theories/M_Measure.v
theories/SpecControl.v
theories/L_Control.v
theories/L_Catalogue.v
theories/Properties_Control.v
theories/M_Integrator.v
theories/SpecRun.v
theories/L_Generic.v
theories/L_Run.v
theories/L_Iter.v
theories/L_Whole.v
theories/L_WholeR.v
theories/L_Log.v
theories/L_RunProps.v
theories/WitnessRun.v
theories/Properties_Run.v
theories/SpecRevolve.v
theories/L_Revolve.v
theories/L_RevolveLog.v
theories/Properties_Revolve.v
theories/SpecAdaptive.v
theories/L_Adaptive.v
theories/L_Adaptive2.v
theories/L_Adaptive3.v
theories/WitnessAdaptive.v
theories/Properties_Adaptive.v
theories/M_Metadata.v
theories/SpecMetadata.v
theories/L_Metadata.v
theories/L_Metadata2.v
theories/L_Metadata3.v
theories/Properties_Metadata.v
theories/M_Tableaux.v
theories/M_TableauxInit.v
theories/SpecTree.v
theories/SpecOrder.v
theories/L_Fields.v
theories/L_OrderCheck.v
theories/L_Order.v
theories/Properties_Order.v
theories/SpecFilter.v
theories/L_Filter.v
theories/Properties_Filter.v
theories/M_Components.v
theories/SpecComponents.v
theories/L_Components.v
theories/L_Components2.v
theories/Properties_Components.v
theories/M_Packing.v
theories/SpecPacking.v
theories/L_Packing.v
theories/L_Packing2.v
theories/L_Packing3.v
theories/L_Packing4.v
theories/L_Packing5.v
theories/L_Packing6.v
theories/L_Packing7.v
theories/L_Packing8.v
theories/WitnessPacking.v
theories/Properties_Packing.v
theories/M_MPI.v
theories/SpecMPI.v
theories/L_MPI.v
theories/L_MPI2.v
theories/L_MPI3.v
theories/L_MPI4.v
theories/L_MPI5.v
theories/WitnessMPI.v
theories/Properties_MPI.v
theories/M_MPIRun.v
theories/SpecMPIRun.v
theories/L_MPI6.v
theories/L_MPI7.v
theories/WitnessMPIRun.v
theories/Properties_MPIRun.v
theories/M_Heap.v
theories/SpecHeap.v
theories/L_Heap.v
theories/L_Heap2.v
theories/L_Heap3.v
theories/L_Heap4.v
theories/WitnessHeap.v
theories/Properties_Heap.v
theories/M_Writer.v
theories/SpecWriter.v
theories/L_Writer.v
theories/L_Writer2.v
theories/L_Writer3.v
theories/L_Writer4.v
theories/L_Writer5.v
theories/L_Writer6.v
theories/L_Writer7.v
theories/L_Writer8.v
theories/L_Writer9.v
theories/WitnessWriter.v
theories/Properties_Writer.v
theories/Float64.v
theories/SpecRounding.v
theories/L_Rounding.v
theories/Properties_Rounding.v
theories/SpecConvergence.v
theories/L_Convergence.v
theories/L_RunConvergence.v
theories/Properties_Convergence.v
theories/M_Component.v
theories/SpecComponent.v
theories/L_Component.v
theories/L_Component2.v
theories/L_Component3.v
theories/L_Component4.v
theories/WitnessComponent.v
theories/Properties_Component.v
theories/SpecSmooth.v
theories/SpecNodes.v
theories/L_Series.v
theories/L_Series2.v
theories/L_OrderConv.v
theories/L_Rows.v
theories/L_RunOrder.v
theories/WitnessOrder.v
theories/Properties_OrderConv.v
theories/SpecTotal.v
theories/SpecStage.v
theories/M_Stage.v
theories/L_Total.v
theories/L_Stage.v
theories/L_Stage2.v
theories/L_Stage3.v
theories/L_Stage4.v
theories/L_Stage5.v
theories/L_Stage6.v
theories/L_Stage7.v
theories/WitnessStage.v
theories/L_Stage8.v
theories/Properties_Stage.v
theories/M_Problems.v
theories/SpecProblems.v
theories/L_Problems.v
theories/L_Problems2.v
theories/L_Problems3.v
theories/L_Problems4.v
theories/Properties_Problems.v
theories/SpecLocal.v
theories/L_Local.v
theories/L_Local2.v
theories/L_Local3.v
theories/M_Kaps.v
theories/SpecKaps.v
theories/L_Kaps.v
theories/L_Kaps2.v
theories/L_Kaps3.v
theories/L_Kaps4.v
theories/L_Kaps5.v
theories/L_Kaps6.v
theories/L_Kaps7.v
theories/L_Kaps8.v
theories/WitnessKaps.v
theories/WitnessKaps2.v
theories/Properties_Local.v
theories/SpecSensitivity.v
theories/L_Sensitivity.v
theories/L_Sensitivity2.v
theories/L_Sensitivity3.v
theories/SpecKapsChange.v
theories/L_Quadratic.v
theories/L_KapsChange.v
theories/L_KapsChange2.v
theories/WitnessKapsChange.v
theories/Properties_Sensitivity.v
theories/SpecFloating.v
theories/L_Float.v
theories/L_StepT.v
theories/L_Floating.v
theories/L_Floating2.v
theories/L_Floating3.v
theories/L_Floating4.v
theories/L_Floating5.v
theories/L_TotalT.v
theories/WitnessFloating.v
theories/Properties_Floating.v
theories/M_TableauxFloat.v
theories/SpecTableauxFloat.v
theories/L_FloatOps.v
theories/L_FloatError.v
theories/L_TableauxFloatCheck.v
theories/L_TableauxFloat.v
theories/L_TableauxFloat2.v
theories/WitnessTableauxFloat.v
theories/Properties_TableauxFloat.v
theories/M_Setup.v
theories/SpecSetup.v
theories/L_Setup.v
theories/Properties_Setup.v
theories/SpecScheme.v
theories/L_Scheme.v
theories/L_SchemeR.v
theories/Properties_Scheme.v
theories/SpecStiff.v
theories/L_StiffCheck.v
theories/L_Stiff.v
theories/L_Stiff2.v
theories/L_Stiff3.v
theories/L_Stiff4.v
theories/L_Stiff5.v
theories/Properties_Stiff.v
theories/SpecLoop.v
theories/L_Loop.v
theories/L_Loop2.v
theories/L_Loop3.v
theories/WitnessLoop.v
theories/Properties_Loop.v
theories/SpecCallback.v
theories/L_Callback.v
theories/Properties_Callback.v
theories/SpecInvariant.v
theories/L_Invariant.v
theories/Properties_Invariant.v
theories/SpecRestart.v
theories/L_Restart.v
theories/L_Restart2.v
theories/L_Restart3.v
theories/L_Restart4.v
theories/Properties_Restart.v
theories/SpecChange.v
theories/L_Change.v
theories/L_Change2.v
theories/L_Change3.v
theories/Properties_Change.v
theories/M_Console.v
theories/SpecConsole.v
theories/L_Console.v
theories/Properties_Console.v
theories/SpecChange2.v
theories/L_Change4.v
theories/L_Change5.v
theories/Properties_Change2.v
theories/SpecChange3.v
theories/L_Change6.v
theories/L_Change7.v
theories/Properties_Change3.v
theories/SpecMeet.v
theories/L_Meet.v
theories/Properties_Meet.v
theories/L_Setup2.v
theories/Properties_Setup2.v
