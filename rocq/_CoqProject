-Q theories Verif
theories/Limbs.v
theories/LimbsFacts.v
theories/Gen.v
theories/GenFacts.v
theories/Raw.v
theories/Spec.v
theories/MontFacts.v
theories/RawFacts.v
theories/Instances.v
theories/PropsRaw.v
theories/ModRing.v
theories/Fr.v
theories/FrSpec.v
theories/FrFacts.v
theories/FrFacts2.v
theories/FrFacts3.v
theories/FrProg.v
theories/FrProgFacts.v
theories/FrInst.v
theories/PropsFr.v
theories/Bytes.v
theories/BytesFacts.v
theories/Text.v
theories/TextFacts.v
theories/FrCpp.v
theories/FrCppSpec.v
theories/FrCppFacts.v
theories/NumTheory.v
theories/Primes.v
theories/PropsCpp.v
theories/Group.v
theories/Naf.v
theories/NafFacts.v
theories/PropsNaf.v
theories/Split.v
theories/SplitFacts.v
theories/PropsSplit.v
theories/Tower.v
theories/TowerAlg.v
theories/TowerFacts.v
theories/TowerFacts2.v
theories/Zp.v
theories/TowerFacts3.v
theories/PropsTower.v
theories/Curve.v
theories/CurveFacts.v
theories/CurveAlg.v
theories/CurveProg.v
theories/PropsCurve.v
theories/GroupTac.v
theories/Multiexp.v
theories/MultiexpFacts.v
theories/MultiexpFacts2.v
theories/Msm.v
theories/MsmFacts.v
theories/MultiexpFacts3.v
theories/PropsMultiexp.v
theories/Par.v
theories/ParFacts.v
theories/ParOwn.v
theories/Threads.v
theories/ThreadsFacts.v
theories/Fft.v
theories/FftFacts.v
theories/FftAlg.v
theories/FftFacts2.v
theories/PolyRoots.v
theories/FftCtor.v
theories/FftCtorFacts.v
theories/FftCtorFacts2.v
theories/PropsFft.v
theories/PropsThreads.v
theories/Worker.v
theories/WorkerFacts.v
theories/PropsWorker.v
theories/BinFile.v
theories/BinFileFacts.v
theories/BinFileFacts2.v
theories/BinFileFacts3.v
theories/PropsBinFile.v
theories/X86.v
theories/X86Gen.v
theories/X86Sim.v
theories/X86Sim2.v
theories/X86Mont.v
theories/X86Mont2.v
theories/X86Call.v
theories/X86Routines.v
theories/X86Raw.v
theories/X86RawFacts.v
theories/X86RawFacts2.v
theories/X86RawFacts3.v
theories/X86Inst.v
theories/X86Final.v
theories/PropsX86.v
theories/X86T.v
theories/X86TWords.v
theories/X86THelp.v
theories/X86TFacts.v
theories/X86THelp2.v
theories/X86THelp3.v
theories/X86TSpec.v
theories/X86TInv.v
theories/X86TConv.v
theories/X86TMul.v
theories/X86TFinal.v
theories/X86TInst.v
theories/X86TFrame.v
theories/X86TAdd.v
theories/X86TFinal2.v
theories/PropsX86T.v
theories/X86TLoop.v
theories/X86TCmp.v
theories/X86TLogic.v
theories/X86TFinal3.v
theories/X86TBitLoop.v
theories/X86TBit.v
theories/X86TFinal4.v
theories/X86TShiftVal.v
theories/X86TRawShift.v
theories/X86TFinal5.v
theories/X86TShift.v
theories/X86TShift2.v
theories/X86TFinal6.v
theories/X86TInt.v
theories/X86TIntFacts.v
theories/X86TFinal7.v
theories/PropsX86C.v
theories/PropsX86B.v
theories/PropsX86S.v
theories/PropsX86D.v
theories/PropsX86I.v
theories/X86Copyn.v
theories/X86CopynFacts.v
theories/PropsX86N.v
theories/Pool.v
theories/PoolFacts.v
theories/PropsPool.v
theories/RaceModel.v
theories/RaceFacts.v
theories/PropsRace.v
theories/Arm.v
theories/ArmFacts.v
theories/ArmRaw.v
theories/ArmCmp.v
theories/ArmZero.v
theories/PropsArm.v
theories/ArmChain.v
theories/ArmSave.v
theories/ArmAdd.v
theories/ArmSub.v
theories/PropsArm2.v
theories/ArmMul.v
theories/ArmMulChain.v
theories/ArmMulAB.v
theories/ArmMulRow.v
theories/ArmCsel.v
theories/ArmMulLoop.v
theories/ArmMulRow1.v
theories/ArmMulLoop1.v
theories/ArmFrame.v
theories/ArmMulMain.v
theories/ArmMulMain1.v
theories/ArmBin.v
theories/ArmBinFacts.v
theories/PropsArm3.v
theories/PropsArm4.v
