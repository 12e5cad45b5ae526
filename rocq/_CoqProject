-Q theories Verif
theories/Base.v
theories/BaseProofs.v
theories/UtfModel.v
theories/UtfSpec.v
theories/UtfProofs.v
theories/UtfProps.v
theories/SigModel.v
theories/SigSpec.v
theories/SigProofs.v
theories/SigProofs2.v
theories/SigProps.v
theories/VmState.v
theories/VmModel.v
theories/VmStep.v
theories/VmBase.v
theories/VmFrame.v
theories/VmWf.v
theories/VmPrim.v
theories/VmInv.v
theories/VmReg.v
theories/VmFine.v
theories/VmRegInv.v
theories/VmTree.v
theories/VmSpec.v
theories/VmExact.v
theories/VmQuiet.v
theories/VmClass.v
theories/MemSpec.v
theories/VmMember.v
theories/VmMember2.v
theories/VmMember3.v
theories/VmTables.v
theories/HookSpec.v
theories/VmHook.v
theories/VmMemHist.v
theories/VmEnvInv.v
theories/CallSpec.v
theories/VmCall.v
theories/VmCall2.v
theories/VmThread.v
theories/VmCall3.v
theories/VmDemo.v
theories/ClassProps.v
theories/MemberProps.v
theories/CallProps.v
theories/RefSpec.v
theories/VmRef.v
theories/VmRef2.v
theories/VmRef3.v
theories/RefProps.v
theories/ArrSpec.v
theories/VmObj.v
theories/VmArr.v
theories/VmArr2.v
theories/ArrProps.v
theories/HierSpec.v
theories/VmHier.v
theories/HierProps.v
theories/VmNames.v
theories/BaronModel.v
theories/BaronProps.v
theories/LibModel.v
theories/LibProps.v
theories/CtxModel.v
theories/CtxProps.v
theories/TableModel.v
theories/TableProps.v
theories/FieldModel.v
theories/FieldProps.v
theories/VmField.v
theories/FieldObjProps.v
theories/WrapModel.v
theories/WrapSpec.v
theories/WrapProps.v
theories/ConcModel.v
theories/ConcLogic.v
theories/ConcSpec.v
theories/ConcDisc.v
theories/ConcReg.v
theories/ConcMem.v
theories/ConcProps.v
theories/ConcThr.v
theories/ConcThrProps.v
theories/ConcIdSpec.v
theories/ConcId.v
theories/ConcIdProps.v
theories/CastModel.v
theories/CastSpec.v
theories/CastProps.v
theories/HandleSpec.v
theories/HandleProps.v
theories/ReplModel.v
theories/ReplSpec.v
theories/ReplProps.v
theories/NzHistModel.v
theories/NzHistProps.v
theories/InvokeModel.v
theories/InvokeSpec.v
theories/InvokeProps.v
theories/StartProps.v
theories/GenModel.v
theories/GenSpec.v
theories/GenProofs.v
theories/GenText.v
theories/GenFwd.v
theories/GenProps.v
theories/RawModel.v
theories/RawProps.v
theories/BootProps.v
theories/DescModel.v
theories/DescProps.v
theories/DescMore.v
theories/IfaceModel.v
theories/IfaceProps.v
theories/EnvModel.v
theories/EnvProps.v
theories/MainModel.v
theories/MainProps.v
theories/FakeModel.v
theories/FakeProps.v
theories/NonZeroModel.v
theories/NonZeroProps.v
theories/CArrModel.v
theories/CArrSpec.v
theories/CArrProps.v
theories/CObjModel.v
theories/CObjProps.v
theories/CCopyModel.v
theories/CCopyProps.v
theories/ResModel.v
theories/ResProps.v
theories/EnvCppModel.v
theories/EnvCppProps.v
theories/GenBal.v
theories/RepoTests.v
theories/SimpleProps.v
