-Q theories Verif
theories/PyBase.v
theories/BVModel.v
theories/BVSpec.v
theories/BVFacts.v
theories/BVOps.v
theories/SliceFacts.v
theories/OpModel.v
theories/OpFacts.v
theories/BVPropFacts.v
theories/BVProofs.v
theories/BVProps.v
theories/OpSpec.v
theories/OpProofs.v
theories/OpProps.v
theories/HeapModel.v
theories/HeapSpec.v
theories/HeapFacts.v
theories/HeapProofs.v
theories/HeapProps.v
theories/IteModel.v
theories/IteSpec.v
theories/IteFacts.v
theories/IteProofs.v
theories/IteProps.v
theories/MetaModel.v
theories/MetaSpec.v
theories/MergeFacts.v
theories/MetaFacts.v
theories/MetaProofs.v
theories/MetaProps.v
theories/SMTTerm.v
theories/SMTModel.v
theories/SMTSpec.v
theories/SMTFacts.v
theories/SMTOps.v
theories/SMTInfix.v
theories/SMTMore.v
theories/SMTProofs.v
theories/SMTProps.v
theories/SIteModel.v
theories/SIteSpec.v
theories/SIteFacts.v
theories/SIteProofs.v
theories/SIteProps.v
theories/NameModel.v
theories/NameSpec.v
theories/NameFacts.v
theories/NameProofs.v
theories/NameProps.v
theories/NThreadModel.v
theories/NThreadSpec.v
theories/NThreadFacts.v
theories/NThreadProofs.v
theories/NThreadProps.v
theories/ProtoModel.v
theories/ProtoSpec.v
theories/ProtoFacts.v
theories/ProtoProofs.v
theories/ProtoProps.v
theories/Z3Model.v
theories/Z3Spec.v
theories/Z3Facts.v
theories/Z3Proofs.v
theories/Z3Props.v
theories/ADTTy.v
theories/ADTTyFacts.v
theories/ADTModel.v
theories/ADTSpec.v
theories/ADTFacts.v
theories/ADTValFacts.v
theories/ADTEqFacts.v
theories/ADTMoreFacts.v
theories/ADTProofs.v
theories/ADTProps.v
theories/RandomSpec.v
theories/RandomProofs.v
theories/RandomProps.v
theories/InternModel.v
theories/InternSpec.v
theories/InternFacts.v
theories/InternCacheFacts.v
theories/InternStepFacts.v
theories/InternProofs.v
theories/InternProps.v
theories/RebindModel.v
theories/RebindSpec.v
theories/RebindFacts.v
theories/RebindBVFacts.v
theories/RebindTypeFacts.v
theories/StripFacts.v
theories/RebindCheck.v
theories/RebindKeepFacts.v
theories/RebindProofs.v
theories/RebindProps.v
theories/VisitModel.v
theories/VisitSpec.v
theories/VisitProofs.v
theories/VisitProps.v
theories/ModModel.v
theories/ModSpec.v
theories/ModFacts.v
theories/ModStepFacts.v
theories/ModRunFacts.v
theories/ModProofs.v
theories/ModProps.v
theories/UtilModel.v
theories/UtilSpec.v
theories/UtilProofs.v
theories/UtilProps.v
theories/TPropModel.v
theories/TPropSpec.v
theories/TPropProofs.v
theories/TPropProps.v
theories/Z3NameModel.v
theories/Z3NameSpec.v
theories/Z3NameProofs.v
theories/Z3NameProps.v
theories/PMethModel.v
theories/PMethSpec.v
theories/PMethProofs.v
theories/PMethProps.v
theories/PrintModel.v
theories/PrintSpec.v
theories/PrintProofs.v
theories/PrintProps.v
theories/MixModel.v
theories/MixSpec.v
theories/MixProofs.v
theories/MixProps.v
theories/FPModel.v
theories/FPSpec.v
theories/FPRoundFacts.v
theories/FPPatFacts.v
theories/FPEncFacts.v
theories/FPDecFacts.v
theories/FPSqrtFacts.v
theories/FPBracket.v
theories/FPQFacts.v
theories/FPRoundSpec.v
theories/FPInst.v
theories/FPArith.v
theories/FPSqrtSpec.v
theories/FPMore.v
theories/FPRandFacts.v
theories/FPProofs.v
theories/FPProps.v
theories/FP2Proofs.v
theories/FP2Props.v
theories/SMTFPModel.v
theories/SMTFPSpec.v
theories/SMTFPFacts.v
theories/SFPProofs.v
theories/SFPProps.v
theories/FMetaModel.v
theories/FMetaSpec.v
theories/FMetaFacts.v
theories/FMetaProofs.v
theories/FMetaProps.v
theories/ProgModel.v
theories/ProgSpec.v
theories/ProgFacts.v
theories/ProgInputs.v
theories/ProgProofs.v
theories/ProgProps.v
theories/HierModel.v
theories/HierSpec.v
theories/HierFacts.v
theories/HierProofs.v
theories/HierProps.v
theories/EnumModel.v
theories/EnumSpec.v
theories/EnumFacts.v
theories/EnumProofs.v
theories/EnumProps.v
theories/SerModel.v
theories/SerSpec.v
theories/SerFacts.v
theories/SerProofs.v
theories/SerProps.v
theories/NewModel.v
theories/NewSpec.v
theories/NewVecFacts.v
theories/NewAdtFacts.v
theories/NewVecProofs.v
theories/NewVecProps.v
theories/NewAdtProofs.v
theories/NewAdtProps.v
theories/FloatModel.v
theories/FloatSpec.v
theories/FloatProofs.v
theories/FloatProps.v
theories/DictModel.v
theories/DictSpec.v
theories/DictFacts.v
theories/DictProofs.v
theories/DictProps.v
theories/ItemProofs.v
theories/ItemProps.v
theories/SPMethModel.v
theories/SPMethSpec.v
theories/SPMethFacts.v
theories/SPMethProofs.v
theories/SPMethProps.v
theories/ThreadModel.v
theories/ThreadSpec.v
theories/ThreadFacts.v
theories/ThreadProofs.v
theories/ThreadProps.v
theories/ShareModel.v
theories/ShareSpec.v
theories/ShareFacts.v
theories/ShareProv.v
theories/ShareProofs.v
theories/ShareProps.v
theories/SeqModel.v
theories/SeqSpec.v
theories/SeqFacts.v
theories/SeqProofs.v
theories/SeqProps.v
theories/SeqClsModel.v
theories/SeqClsProofs.v
theories/SeqClsProps.v
theories/AliasModel.v
theories/AliasSpec.v
theories/AliasFacts.v
theories/AliasProofs.v
theories/AliasProps.v
theories/MProgModel.v
theories/MProgSpec.v
theories/MProgProofs.v
theories/MProgProps.v
theories/DProgModel.v
theories/DProgSpec.v
theories/DProgFacts.v
theories/DProgSim.v
theories/DProgProofs.v
theories/DProgProps.v
theories/FPAlgFacts.v
theories/FPAlgProofs.v
theories/FPAlgProps.v
theories/FPExFacts.v
theories/FPExProofs.v
theories/FPExProps.v
theories/LawSpec.v
theories/LawFacts.v
theories/LawProofs.v
theories/LawProps.v
theories/DerivModel.v
theories/DerivSpec.v
theories/DerivFacts.v
theories/DerivProofs.v
theories/DerivProps.v
theories/FPErrFacts.v
theories/FPTwoSumFacts.v
theories/FPErrProofs.v
theories/FPErrProps.v
theories/FPWideSpec.v
theories/FPWideFacts.v
theories/FPLawSpec.v
theories/FPLawProofs.v
theories/FPLawProps.v
theories/FPMinFacts.v
theories/FPMinProofs.v
theories/FPMinProps.v
theories/FPQuotFacts.v
theories/FPRootFacts.v
theories/FPWideProofs.v
theories/FPWideProps.v
theories/ConstModel.v
theories/ConstSpec.v
theories/ConstProofs.v
theories/ConstProps.v
theories/SPrintModel.v
theories/SPrintSpec.v
theories/SPrintFacts.v
theories/SPrintProofs.v
theories/SPrintProps.v
theories/HashModel.v
theories/HashSpec.v
theories/HashFacts.v
theories/HashProofs.v
theories/HashProps.v
