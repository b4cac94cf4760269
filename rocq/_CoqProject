-Q theories Verif
theories/AccumModel.v
theories/AccumSpec.v
theories/AccumProofs.v
theories/AccumProps.v
theories/Arith.v
theories/PfModel.v
theories/PfSpec.v
theories/RsumLemmas.v
theories/PfProofs.v
theories/PfReal.v
theories/PfReal2.v
theories/PfCov.v
theories/PfHist.v
theories/PfMore.v
theories/Ieee.v
theories/PfIeee.v
theories/PfProps.v
theories/KdModel.v
theories/KdSpec.v
theories/KdProofs.v
theories/KdProps.v
theories/FilterModel.v
theories/FilterSpec.v
theories/FilterProofs.v
theories/FilterProps.v
theories/QuatModel.v
theories/QuatSpec.v
theories/QuatProofs.v
theories/QuatProofs2.v
theories/QuatProps.v
theories/StateModel.v
theories/StateSpec.v
theories/StateProofs.v
theories/StateProps.v
theories/RayModel.v
theories/RaySpec.v
theories/RayProofs.v
theories/RayGeo.v
theories/RayProps.v
theories/NnSpec.v
theories/NnProofs.v
theories/KRayProofs.v
theories/LidarModel.v
theories/LidarSpec.v
theories/LidarProofs.v
theories/LidarProofs2.v
theories/LidarProps.v
theories/SamplerModel.v
theories/SamplerSpec.v
theories/SamplerProofs.v
theories/SamplerProps.v
theories/NdModel.v
theories/NdSpec.v
theories/NdProps.v
theories/ParamModel.v
theories/ParamProps.v
theories/ConvModel.v
theories/ConvProps.v
theories/NodeModel.v
theories/NodeSpec.v
theories/NodeFrame.v
theories/NodeMapProofs.v
theories/NodeMapProps.v
theories/NodeMotionProps.v
theories/NodeLocProofs.v
theories/NodeStepProofs.v
theories/NodeHistProps.v
theories/NodeTfProps.v
theories/NodeAccProofs.v
theories/NodeAccProps.v
theories/NodeAliveSpec.v
theories/NodeAliveProofs.v
theories/NodeAliveProofs2.v
theories/NodeAliveProps.v
theories/NodeGlobProps.v
theories/NodeDemo.v
theories/NodePostProofs.v
theories/NodePostSpec.v
theories/NodePostProps.v
theories/NodeOutProps.v
theories/NodeDemo2.v
theories/MatModel.v
theories/MatSpec.v
theories/MatProofs.v
theories/MatDet.v
theories/MatProps.v
theories/IeeeErr.v
theories/PfErrProps.v
theories/PfErr2Props.v
theories/IeeeErrProps.v
theories/MatDemo.v
theories/MarkerModel.v
theories/MarkerSpec.v
theories/MarkerProofs.v
theories/MarkerProps.v
theories/NodeFramesProps.v
theories/NodeTrackSpec.v
theories/NodeTrackProofs.v
theories/NodeTrackProps.v
theories/NodeTrackDemo.v
theories/NodeKeepSpec.v
theories/NodeKeepProofs.v
theories/NodeKeepSens.v
theories/NodeKeepRun.v
theories/NodeKeepProps.v
theories/NodeKeepDemo.v
theories/NodeApiProps.v
theories/NodeFakeProps.v
theories/NodeCorrProps.v
theories/IfModel.v
theories/IfProps.v
theories/NodeTimeProps.v
theories/DynModel.v
theories/DynProps.v
theories/DynDemo.v
theories/ParamTabProps.v
theories/NodeUnusedProps.v
theories/NodeSampModel.v
theories/NodeSampSpec.v
theories/NodeSampProps.v
theories/NodeSampDemo.v
theories/NodeSampGlobProps.v
theories/NodeSampGlobDemo.v
theories/SamplerDrawSpec.v
theories/SamplerDrawProps.v
theories/NodeSampDrawProps.v
theories/PfUnbiasedProps.v
theories/NodeStartProps.v
theories/NodeStartDemo.v
theories/LikeFloatModel.v
theories/LikeFloatSpec.v
theories/LikeFloatProofs.v
theories/LikeFloatErr.v
theories/LikeFloatProps.v
theories/KdFloatModel.v
theories/KdFloatProofs.v
theories/KdFloatProps.v
theories/NoiseSpec.v
theories/NoiseProps.v
theories/QuatFloatModel.v
theories/QuatFloatSpec.v
theories/QuatFloatProofs.v
theories/QuatFloatProps.v
theories/QuatFloatAcc.v
theories/QuatFloatAccProps.v
theories/ParamConvProps.v
theories/SymSpec.v
theories/SymProofs.v
theories/SymProps.v
theories/GravFloatProofs.v
theories/GravFloatProps.v
theories/KRayIncProps.v
theories/OrderProps.v
theories/StateEntProps.v
theories/NodeNegProps.v
theories/FiltFloatModel.v
theories/FiltFloatSpec.v
theories/FiltFloatProofs.v
theories/FiltFloatProps.v
theories/ClipFloatModel.v
theories/ClipFloatSpec.v
theories/ClipFloatProofs.v
theories/ClipFloatProps.v
theories/TransFloatModel.v
theories/TransFloatSpec.v
theories/TransFloatProofs.v
theories/TransFloatProps.v
