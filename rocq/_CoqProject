-Q theories Verif
theories/Base.v
theories/ArrayModel.v
theories/ArraySpec.v
theories/ArrayRun.v
theories/ArrayProofs.v
theories/ArrayOps.v
theories/ArrayOps2.v
theories/ArrayOps3.v
theories/ArrayOps4.v
theories/ArrayHistory.v
theories/ArrayObsSpec.v
theories/ArrayObs.v
theories/ArrayTheory.v
theories/ArrayTheory2.v
theories/ArrayExact.v
theories/ArrayProps.v
theories/Client.v
theories/ListModel.v
theories/ListSpec.v
theories/ListRun.v
theories/ListPrim.v
theories/ListChain.v
theories/ListChain2.v
theories/ListSim.v
theories/ListHistory.v
theories/ListObsSpec.v
theories/ListObs.v
theories/ListTheory.v
theories/ListProps.v
theories/HeapModel.v
theories/HeapSpec.v
theories/HeapRun.v
theories/HeapOrder.v
theories/HeapProofs.v
theories/HeapHistory.v
theories/HeapProps.v
theories/SpscModel.v
theories/SpscSpec.v
theories/SpscArith.v
theories/SpscInv.v
theories/SpscStep.v
theories/SpscSim.v
theories/SpscWait.v
theories/SpscProps.v
theories/SpscExact.v
theories/SimdModel.v
theories/SimdSpec.v
theories/SimdProofs.v
theories/SimdReverse.v
theories/SimdProps.v
theories/BitsModel.v
theories/BitsProps.v
theories/ViewModel.v
theories/ViewSpec.v
theories/ViewProps.v
theories/IterModel.v
theories/IterSpec.v
theories/IterProps.v
theories/DelegateModel.v
theories/DelegateSpec.v
theories/DelegateProofs.v
theories/DelegateProps.v
theories/TupleModel.v
theories/TupleSpec.v
theories/TupleProofs.v
theories/TupleProps.v
theories/BindModel.v
theories/BindProps.v
theories/VecModel.v
theories/VecSpec.v
theories/VecProofs.v
theories/VecProps.v
theories/FloatModel.v
theories/FloatProps.v
theories/FloatOpsProps.v
theories/FloatExprProofs.v
theories/FloatMatProps.v
theories/FloatProjProps.v
theories/IntVecModel.v
theories/IntVecProps.v
theories/TypesModel.v
theories/TypesProps.v
theories/LikeModel.v
theories/LikeProps.v
theories/ExceptModel.v
theories/ExceptProps.v
theories/MatModel.v
theories/MatProofs.v
theories/MatProps.v
theories/TransformSpec.v
theories/TransformProps.v
theories/ConstModel.v
theories/ConstProps.v
theories/RoundProps.v
theories/SeriesProofs.v
theories/SeriesProps.v
theories/ZetaProps.v
theories/HalModel.v
theories/HalProps.v
theories/LayoutModel.v
theories/LayoutProps.v
theories/DetectModel.v
theories/DetectProps.v
theories/AllocModel.v
theories/AllocSpec.v
theories/AllocProofs.v
theories/AllocArr.v
theories/AllocList.v
theories/AllocProps.v
theories/InputModel.v
theories/InputProofs.v
theories/InputLost.v
theories/InputProps.v
theories/ReqModel.v
theories/ReqProps.v
theories/IncludeModel.v
theories/IncludeProofs.v
theories/IncludeProps.v
theories/OverModel.v
theories/OverProps.v
theories/ElemModel.v
theories/ElemProps.v
theories/CommonModel.v
theories/CommonProps.v
theories/FunctorModel.v
theories/FunctorProps.v
theories/CtorModel.v
theories/CtorProps.v
theories/GuideModel.v
theories/GuideProps.v
theories/SingularProps.v
theories/OpModel.v
theories/OpProps.v
theories/ArrayCostProps.v
theories/MixModel.v
theories/MixProps.v
theories/AccessModel.v
theories/AccessProps.v
theories/FmaModel.v
theories/FmaProofs.v
theories/FmaProps.v
theories/EvalModel.v
theories/EvalProps.v
theories/FmaLenModel.v
theories/FmaLenProps.v
theories/DestroyModel.v
theories/DestroyProps.v
theories/SpscSeqModel.v
theories/SpscSeqProps.v
theories/DelegateReModel.v
theories/DelegateReProps.v
theories/ForwardModel.v
theories/ForwardProps.v
theories/BindArgModel.v
theories/BindArgProps.v
theories/SizeModel.v
theories/SizeProps.v
theories/TupleArgModel.v
theories/TupleArgProps.v
theories/AddArgModel.v
theories/AddArgProps.v
theories/RepoTests.v
theories/RepoTestsMath.v
