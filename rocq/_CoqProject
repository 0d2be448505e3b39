-Q theories Verif

theories/Base.v
theories/BaseFacts.v
theories/ExecModel.v
theories/ExecProofs.v
theories/ExecForEach.v
theories/ExecRun.v
theories/ExecSpec.v
theories/ExecThm.v
theories/ExecExamples.v
theories/ExactSpec.v
theories/ExecExact.v
theories/PropsForEach.v
theories/PolicyModel.v
theories/PolicySpec.v
theories/PolicyProofs.v
theories/PropsPolicy.v
theories/TransformModel.v
theories/TransformSpec.v
theories/TransformProofs.v
theories/TransformThm.v
theories/TransformExamples.v
theories/TransformExact.v
theories/WriteBackExact.v
theories/AlignedProofs.v
theories/PropsTransform.v
theories/ReduceModel.v
theories/ReduceSpec.v
theories/ReduceProofs.v
theories/CountModel.v
theories/MatchSame.v
theories/CountProofs.v
theories/CountExact.v
theories/PropsCount.v
theories/TReduceModel.v
theories/TReduceProofs.v
theories/TReduceSpec.v
theories/TReduceThm.v
theories/TReduceExact.v
theories/AlignedReduce.v
theories/TReduceExamples.v
theories/PropsTReduce.v
theories/PermuteModel.v
theories/PermuteSpec.v
theories/PermuteProofs.v
theories/PermuteThm.v
theories/PermuteExact.v
theories/PropsPermute.v
theories/CwModel.v
theories/CwSpec.v
theories/CwProofs.v
theories/PropsCw.v
theories/StructModel.v
theories/StructProofs.v
theories/PropsStruct.v
theories/MaskModel.v
theories/MaskProofs.v
theories/PropsMask.v
theories/LaneModel.v
theories/LaneProofs.v
theories/IntModel.v
theories/IntProofs.v
theories/IntSpec.v
theories/IntSpecProofs.v
theories/PropsInt.v
theories/WhereModel.v
theories/WhereProofs.v
theories/PropsWhere.v
theories/ShapeModel.v
theories/ShapeProofs.v
theories/PropsShape.v
theories/HReduceModel.v
theories/HReduceProofs.v
theories/PropsHReduce.v
theories/ValueModel.v
theories/ValueProofs.v
theories/ValueExact.v
theories/PropsValue.v
theories/BitModel.v
theories/BitProofs.v
theories/BitExact.v
theories/PropsBit.v
theories/SimdizeModel.v
theories/SimdizeSpec.v
theories/SimdizeProofs.v
theories/FlatSpec.v
theories/FlatExact.v
theories/PropsSimdize.v
theories/MathModel.v
theories/MathProofs.v
theories/PropsMath.v
theories/StructGetModel.v
theories/StructGetProofs.v
theories/PropsStructGet.v
theories/SimdizeTypeModel.v
theories/SimdizeTypeSpec.v
theories/SimdizeTypeProofs.v
theories/SimdizeTypeExamples.v
theories/AbiModel.v
theories/AbiSpec.v
theories/AbiProofs.v
theories/PropsTypes.v
theories/TraitModel.v
theories/TraitProofs.v
theories/PropsTrait.v
theories/SimdTupleModel.v
theories/SimdTupleSpec.v
theories/SimdTupleProofs.v
theories/PropsSimdTuple.v
theories/CwOpModel.v
theories/CwOpProofs.v
theories/PropsCwOp.v
theories/StructRunModel.v
theories/StructRunSpec.v
theories/StructRunProofs.v
theories/StructRunThm.v
theories/StructRunExamples.v
theories/PropsStructRun.v
theories/CwCallModel.v
theories/CwCallSpec.v
theories/CwCallProofs.v
theories/PropsCwCall.v
theories/StructTransformModel.v
theories/StructTransformSpec.v
theories/StructTransformProofs.v
theories/StructTransformThm.v
theories/StructTransformExamples.v
theories/PropsStructTransform.v
theories/ZipModel.v
theories/ZipSpec.v
theories/ZipThm.v
theories/ZipExamples.v
theories/PropsZip.v
theories/StructReduceModel.v
theories/StructReduceSpec.v
theories/StructReduceThm.v
theories/StructReduceExamples.v
theories/PropsStructReduce.v
theories/HReduceExact.v
theories/HReduceSpec.v
theories/HReduceNan.v
theories/StructCountModel.v
theories/StructCountThm.v
theories/StructCountExamples.v
theories/PropsStructCount.v
theories/OverloadModel.v
theories/OverloadSpec.v
theories/OverloadProofs.v
theories/PropsOverload.v
theories/QualModel.v
theories/QualSpec.v
theories/QualProofs.v
theories/PropsQual.v
theories/BindModel.v
theories/BindSpec.v
theories/BindProofs.v
theories/PropsBind.v
theories/SigModel.v
theories/SigSpec.v
theories/SigProofs.v
theories/PropsSig.v
theories/TplModel.v
theories/TplSpec.v
theories/TplProofs.v
theories/PropsTpl.v
theories/AcceptModel.v
theories/AcceptSpec.v
theories/AcceptProofs.v
theories/PropsAccept.v
theories/RankSpec.v
theories/RankProofs.v
theories/PropsRank.v
theories/StructOpModel.v
theories/StructOpSpec.v
theories/StructOpProofs.v
theories/PropsStructOp.v
theories/AggInitModel.v
theories/AggInitSpec.v
theories/AggInitProofs.v
theories/PropsAggInit.v
theories/ThrowModel.v
theories/ThrowSpec.v
theories/ThrowProofs.v
theories/ThrowExamples.v
theories/PropsThrow.v
theories/PtrModel.v
theories/PtrSpec.v
theories/PtrProofs.v
theories/PtrReduceProofs.v
theories/PtrAutoProofs.v
theories/PtrReadProofs.v
theories/PtrCoverProofs.v
theories/PtrExamples.v
theories/PropsPtr.v
theories/StructOpMoreProofs.v
theories/AggInitRules.v
theories/AggInitRuleProofs.v
theories/ScheduleSpec.v
theories/ScheduleProofs.v
theories/ScheduleThm.v
theories/ScheduleMore.v
theories/PropsSchedule.v
theories/PreModel.v
theories/PreSpec.v
theories/PreProofs.v
theories/PropsPre.v
theories/CvtModel.v
theories/CvtSpec.v
theories/CvtProofs.v
theories/CvtImplicit.v
theories/CvtExamples.v
theories/PropsCvt.v
theories/OrderSpec.v
theories/OrderProofs.v
theories/OrderThm.v
theories/ChunkProofs.v
theories/StructReduceOrder.v
theories/OrderExamples.v
theories/PropsOrder.v
theories/CwModifyModel.v
theories/CwModifySpec.v
theories/CwModifyProofs.v
theories/CwModifyExamples.v
theories/PropsCwModify.v
theories/InstModel.v
theories/InstSpec.v
theories/InstCallsSpec.v
theories/InstProofs.v
theories/InstCalls.v
theories/PropsInst.v
theories/ElemModel.v
theories/ElemSpec.v
theories/ElemProofs.v
theories/PropsElem.v
theories/CallsModel.v
theories/CallsSpec.v
theories/CallsProofs.v
theories/CallsThm.v
theories/CallsExamples.v
theories/PropsCalls.v
theories/AnyReduceSpec.v
theories/AnyReduceThm.v
theories/CountAny.v
theories/AnyReduceExamples.v
theories/PropsAnyReduce.v
theories/OwnSpec.v
theories/OwnProofs.v
theories/PropsOwn.v
theories/AlgebraSpec.v
theories/AlgebraProofs.v
theories/PropsAlgebra.v
theories/DetailModel.v
theories/DetailSpec.v
theories/DetailProofs.v
theories/PropsDetail.v
theories/AccSpec.v
theories/AccProofs.v
theories/AccThm.v
theories/AccExamples.v
theories/PropsAcc.v
theories/AccFloat.v
theories/AccFloatThm.v
theories/PropsAccFloat.v
theories/CostSpec.v
theories/CostProofs.v
theories/CostThm.v
theories/CostExamples.v
theories/PropsCost.v
theories/RCallsModel.v
theories/RCallsSpec.v
theories/RCallsSim.v
theories/RCallsProofs.v
theories/RCallsThm.v
theories/RCallsExamples.v
theories/PropsRCalls.v
theories/MaskObjects.v
theories/TraitMembers.v
theories/PropsMaskObjects.v
theories/BenchModel.v
theories/BenchSpec.v
theories/BenchProofs.v
theories/PropsBench.v
theories/RThrowModel.v
theories/RThrowSpec.v
theories/RThrowProofs.v
theories/RThrowThm.v
theories/RThrowExamples.v
theories/RStateSpec.v
theories/RStateProofs.v
theories/PropsRThrow.v
theories/OwnStateModel.v
theories/OwnStateSpec.v
theories/OwnStateProofs.v
theories/OwnStateExamples.v
theories/PropsOwnState.v
theories/ROrderSpec.v
theories/ROrderProofs.v
theories/ROrderExamples.v
theories/PropsROrder.v
