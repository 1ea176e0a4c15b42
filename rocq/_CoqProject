-Q theories Verif
theories/Base.v
theories/QuickSelectModel.v
theories/QuickSelectProofs.v
theories/ProbeModel.v
theories/ProbeProofs.v
theories/HashtableModel.v
theories/HashtableProofs.v
theories/ThetaModel.v
theories/ThetaProofs.v
theories/ThetaProps.v
theories/Bytes.v
theories/BloomModel.v
theories/BloomProofs.v
theories/BloomProps.v
theories/ListX.v
theories/GoInt.v
theories/CountMinModel.v
theories/CountMinProps.v
theories/FreqModel.v
theories/FreqProofs.v
theories/FreqProps.v
theories/FreqSerdeModel.v
theories/FreqSerdeProps.v
theories/SearchModel.v
theories/SearchProps.v
theories/Arr.v
theories/KllModel.v
theories/KllProofs.v
theories/KllSem.v
theories/KllProps.v
theories/KllSerdeModel.v
theories/KllSerdeProofs.v
theories/KllSerdeProps.v
theories/KllMeanProofs.v
theories/KllMeanProps.v
theories/ReservoirModel.v
theories/ReservoirProps.v
theories/ItemSerdeModel.v
theories/ItemSerdeProps.v
theories/TupleModel.v
theories/TupleProofs.v
theories/TupleProps.v
theories/BitPackData.v
theories/BitPackModel.v
theories/BitPackProofs.v
theories/ThetaSerdeModel.v
theories/ThetaSerdeProofs.v
theories/ThetaSerdeProps.v
theories/HllModel.v
theories/HllPack.v
theories/HllArrProofs.v
theories/HllMode.v
theories/HllUnion.v
theories/HllProps.v
theories/HllSerdeModel.v
theories/HllSerdeProofs.v
theories/HllSerdeProps.v
theories/CpcTable.v
theories/CpcTableProofs.v
theories/CpcModel.v
theories/CpcProofs.v
theories/CpcSketch.v
theories/CpcUnion.v
theories/CpcProps.v
theories/ReqModel.v
theories/ReqProofs.v
theories/ReqSem.v
theories/ReqView.v
theories/ReqProps.v
theories/VarOptModel.v
theories/VarOptHeap.v
theories/VarOptProofs.v
theories/VarOptSem.v
theories/VarOptUnion.v
theories/VarOptProps.v
theories/VarOptMean.v
theories/VarOptSerde.v
theories/VarOptCases.v
theories/TdigestModel.v
theories/TdigestProofs.v
theories/TdigestSem.v
theories/TdigestRank.v
theories/TdigestProps.v
theories/TdigestExact.v
theories/TdigestSerdeModel.v
theories/TdigestSerde.v
theories/TdigestCases.v
theories/CpcTables.v
theories/CpcCodeModel.v
theories/CpcCode.v
theories/CpcCodeTab.v
theories/CpcCodeRound.v
theories/CpcTableMore.v
theories/CpcStateModel.v
theories/CpcStateBytes.v
theories/CpcStateCodec.v
theories/CpcStateProofs.v
theories/CpcStateProps.v
theories/TupleSerdeModel.v
theories/TupleSerdeProofs.v
theories/TupleSerdeProps.v
theories/AonModel.v
theories/AonProps.v
theories/TupleHeapModel.v
theories/TupleHeapProofs.v
theories/TupleHeapProps.v
theories/JaccardModel.v
theories/JaccardProps.v
theories/Murmur3Model.v
theories/Murmur3Props.v
theories/KeysModel.v
theories/KeysProps.v
theories/BloomKeysModel.v
theories/BloomKeysProps.v
theories/FloatModel.v
theories/FloatProofs.v
theories/EstimateModel.v
theories/EstimateLoops.v
theories/EstimateProps.v
theories/RankModel.v
theories/RankProofs.v
theories/RankProps.v
theories/ReqRankModel.v
theories/ReqRankProofs.v
theories/ReqRankProps.v
theories/HllEstTables.v
theories/HllEstModel.v
theories/HllEstProofs.v
theories/HllEstCoupon.v
theories/HllEstHip.v
theories/HllEstComp.v
theories/HllEstProps.v
theories/CpcEstTables.v
theories/CpcEstModel.v
theories/CpcEstKxp.v
theories/CpcEstHip.v
theories/CpcEstConf.v
theories/CpcEstValue.v
theories/CpcEstProps.v
theories/CpcIconBands.v
theories/CpcIcon.v
theories/CpcIconInv.v
theories/CpcIconVal.v
theories/CpcIconExp.v
theories/CpcIconProps.v
theories/FloatBits.v
theories/CpcWrapModel.v
theories/CpcWrapProps.v
theories/HllShipProps.v
theories/HllShipUnion.v
theories/BloomSizeModel.v
theories/BloomSizeProps.v
theories/CountMinErrModel.v
theories/CountMinErrProps.v
theories/KllErrModel.v
theories/KllErrProps.v
