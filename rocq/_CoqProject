-Q theories Verif
theories/Base.v
theories/Scalar.v
theories/Types.v
theories/Spec.v
theories/M_Shape.v
theories/ScalarR.v
theories/M_Tensor.v
theories/M_Adv.v
theories/M_Act.v
theories/M_Loss.v
theories/M_Layers.v
theories/M_Reg.v
theories/M_Opt.v
theories/M_Net.v
theories/M_Data.v
theories/M_Heap.v
theories/M_Par.v
theories/SpecR.v
theories/SpecNN.v
theories/SpecLayers.v
theories/SpecOpt.v
theories/SpecNet.v
theories/SpecNetR.v
theories/SpecData.v
theories/SpecHeap.v
theories/SpecPar.v
theories/L_Index.v
theories/L_Shape.v
theories/L_Bcast.v
theories/L_Tensor.v
theories/L_Reduce.v
theories/L_Tensor2.v
theories/L_Glue.v
theories/L_Nest.v
theories/L_Matmul.v
theories/L_Axes.v
theories/L_Adv.v
theories/L_RSum.v
theories/L_AdvR.v
theories/L_Act.v
theories/L_ActR.v
theories/L_Loss.v
theories/L_Layers.v
theories/L_LayersR.v
theories/L_Conv.v
theories/L_ConvR.v
theories/L_Rows.v
theories/L_Pool.v
theories/L_Pool2.v
theories/L_Drop.v
theories/L_BN.v
theories/L_BNR.v
theories/L_Opt.v
theories/L_Opt2.v
theories/L_OptR.v
theories/L_OptB.v
theories/L_Net.v
theories/L_Net2.v
theories/L_NetR.v
theories/L_Train.v
theories/L_TrainR.v
theories/L_Linear.v
theories/L_Data.v
theories/L_Heap.v
theories/L_Par.v
theories/L_ParCol.v
theories/P_Shape.v
theories/P_Tensor.v
theories/P_Adv.v
theories/P_Act.v
theories/P_Loss.v
theories/P_Layers.v
theories/P_Reg.v
theories/P_Opt.v
theories/P_Net.v
theories/P_Linear.v
theories/P_Data.v
theories/P_Heap.v
theories/P_Par.v
theories/SpecEx.v
theories/M_Ex.v
theories/L_F32.v
theories/L_Ex.v
theories/P_Ex.v
theories/SpecApi.v
theories/M_Api.v
theories/L_Api.v
theories/P_Api.v
theories/SpecSlice.v
theories/M_Slice.v
theories/L_Slice.v
theories/P_Slice.v
theories/TextBase.v
theories/M_Text.v
theories/SpecText.v
theories/L_Text.v
theories/P_Text.v
theories/SpecF32.v
theories/L_Float.v
theories/L_FloatAct.v
theories/L_FloatLib.v
theories/L_FloatT.v
theories/L_FloatFma.v
theories/L_FloatB.v
theories/L_Double.v
theories/L_FloatOpt.v
theories/L_FloatLoss.v
theories/L_FloatTrain.v
theories/P_FloatTrain.v
theories/P_Float.v
theories/M_Addr.v
theories/SpecAddr.v
theories/L_Addr.v
theories/P_Addr.v
theories/M_Log.v
theories/SpecLog.v
theories/L_Log.v
theories/L_LogR.v
theories/P_Log.v
theories/M_Access.v
theories/SpecAccess.v
theories/L_Access.v
theories/P_Access.v
theories/SpecSep.v
theories/L_Sep.v
theories/L_SepR.v
theories/P_Sep.v
theories/SpecInit.v
theories/L_Init.v
theories/L_InitR.v
theories/P_Init.v
theories/SpecClass.v
theories/L_Class.v
theories/P_Class.v
theories/SpecBatch.v
theories/L_Batch.v
theories/L_BatchR.v
theories/P_Batch.v
theories/SpecBatchR.v
theories/L_Avg.v
theories/P_Avg.v
theories/SpecWhole.v
theories/L_Whole.v
theories/P_Whole.v
theories/L_Stall.v
theories/P_Stall.v
theories/SpecRetry.v
theories/L_Retry.v
theories/P_Retry.v
theories/M_Show.v
theories/SpecShow.v
theories/L_Show.v
theories/P_Show.v
theories/L_Perm.v
theories/P_Perm.v
theories/M_Iter.v
theories/L_Iter.v
theories/P_Iter.v
theories/SpecFit.v
theories/L_Fit.v
theories/P_Fit.v
theories/SpecStop.v
theories/L_Stop.v
theories/P_Stop.v
theories/M_Col.v
theories/SpecCol.v
theories/L_Col.v
theories/P_Col.v
theories/SpecSplit.v
theories/L_Split.v
theories/P_Split.v
theories/SpecNear.v
theories/L_Near.v
theories/L_Near2.v
theories/L_Near3.v
theories/P_Near.v
theories/SpecChance.v
theories/L_Chance.v
theories/P_Chance.v
theories/SpecTwin.v
theories/L_Twin.v
theories/P_Twin.v
theories/SpecCalm.v
theories/L_FloatAdam.v
theories/L_Calm.v
theories/P_Calm.v
theories/M_Threads.v
theories/SpecThreads.v
theories/L_Path.v
theories/L_Threads.v
theories/P_Threads.v
theories/SpecShift.v
theories/L_Shift.v
theories/P_Shift.v
theories/SpecRenum.v
theories/L_Renum.v
theories/P_Renum.v
theories/L_NormFail.v
theories/SpecArt.v
theories/L_Art.v
theories/SpecPrune.v
theories/L_Embed.v
theories/L_Prune.v
theories/P_Prune.v
theories/SpecFuse.v
theories/L_Fuse.v
theories/L_Swap.v
theories/P_Fuse.v
theories/SpecRobust.v
theories/L_Robust.v
theories/P_Robust.v
theories/SpecCopies.v
theories/L_Copies.v
theories/P_Copies.v
theories/SpecSway.v
theories/L_Sway.v
theories/P_Sway.v
theories/SpecMono.v
theories/L_Mono.v
theories/L_MonoF.v
theories/P_Mono.v
theories/SpecFreeze.v
theories/L_Freeze.v
theories/L_FreezeF.v
theories/P_Freeze.v
theories/SpecLevel.v
theories/L_Level.v
theories/P_Level.v
theories/SpecIdle.v
theories/L_Idle.v
theories/L_IdleF.v
theories/P_Idle.v
theories/SpecChan.v
theories/L_Chan.v
theories/P_Chan.v
theories/L_Kern.v
theories/L_KernF.v
theories/P_Kern.v
theories/SpecDeep.v
theories/L_Deep.v
theories/P_Deep.v
theories/SpecSettings.v
theories/L_Settings.v
theories/P_Settings.v
theories/Conform.v
