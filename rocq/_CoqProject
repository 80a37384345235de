-Q theories Verif
theories/Base.v
theories/ConvolveModel.v
theories/ConvolveSpec.v
theories/ConvolveProofs.v
theories/ConvolveFinal.v
theories/ConvolveProps.v
theories/FilterModel.v
theories/FilterSpec.v
theories/FilterProofs.v
theories/FilterDemo.v
theories/FilterFinal.v
theories/FilterProps.v
theories/SeqModel.v
theories/SeqSpec.v
theories/SeqListProofs.v
theories/SeqSeqProofs.v
theories/SeqListFinal.v
theories/SeqLifeSpec.v
theories/SeqLifeProofs.v
theories/SeqLifeFinal.v
theories/SeqRenderSpec.v
theories/SeqRenderProofs.v
theories/SeqRenderFinal.v
theories/SeqGroupModel.v
theories/SeqGroupSpec.v
theories/SeqGroupProofs.v
theories/SeqGroupFinal.v
theories/SeqParModel.v
theories/SeqParSpec.v
theories/SeqParProofs.v
theories/SeqParFinal.v
theories/SeqDemo.v
theories/SeqProps.v
theories/ArrModel.v
theories/ArrSpec.v
theories/ArrProofs.v
theories/ArrTimesProofs.v
theories/ArrTimes2Proofs.v
theories/ArrProps.v
theories/MiscModel.v
theories/MiscSpec.v
theories/MiscProofs.v
theories/MiscProps.v
theories/SineModel.v
theories/SineProps.v
theories/CombModel.v
theories/CombSpec.v
theories/CombProofs.v
theories/CombEnumProofs.v
theories/CombProps.v
theories/ScaleModel.v
theories/ScaleSpec.v
theories/ScaleProofs.v
theories/Scale2Proofs.v
theories/Scale3Proofs.v
theories/ScaleProps.v
theories/RandModel.v
theories/RandSpec.v
theories/RandProofs.v
theories/Rand2Proofs.v
theories/RandProps.v
theories/SortModel.v
theories/SortSpec.v
theories/SortProofs.v
theories/Sort2Proofs.v
theories/StatProofs.v
theories/Stat2Proofs.v
theories/SortProps.v
theories/EvModel.v
theories/EvSpec.v
theories/EvProofs.v
theories/Ev2Proofs.v
theories/Ev3Proofs.v
theories/EvProps.v
theories/KerModel.v
theories/KerSpec.v
theories/KerProofs.v
theories/Ker2Proofs.v
theories/MavModel.v
theories/MavSpec.v
theories/MavProofs.v
theories/KerProps.v
theories/FileModel.v
theories/FileSpec.v
theories/FileUseSpec.v
theories/FileProofs.v
theories/File2Proofs.v
theories/FileUseProofs.v
theories/RenderModel.v
theories/RenderProofs.v
theories/FileProps.v
theories/BlockModel.v
theories/BlockSpec.v
theories/BlockProofs.v
theories/BlockProps.v
theories/FftModel.v
theories/FftSpec.v
theories/FftBits.v
theories/FftComplex.v
theories/FftProofs.v
theories/Fft2Proofs.v
theories/FftUseProofs.v
theories/FftProps.v
theories/QueueModel.v
theories/QueueSpec.v
theories/QueueProofs.v
theories/QueueProps.v
theories/PoolModel.v
theories/PoolSpec.v
theories/PoolTrans.v
theories/PoolProofs.v
theories/Pool2Proofs.v
theories/Pool3Proofs.v
theories/Pool4Proofs.v
theories/PoolProps.v
theories/FutModel.v
theories/FutSpec.v
theories/FutProofs.v
theories/FutProps.v
theories/PathModel.v
theories/PathSpec.v
theories/PathProofs.v
theories/Path2Proofs.v
theories/Path3Proofs.v
theories/BezProofs.v
theories/CurveProofs.v
theories/Curve2Proofs.v
theories/Path4Proofs.v
theories/PathProps.v
theories/NoiseModel.v
theories/NoiseSpec.v
theories/NoiseProofs.v
theories/NoiseDemo.v
theories/NoiseProps.v
theories/Arr2Model.v
theories/Arr2Spec.v
theories/Arr2Proofs.v
theories/Arr2BProofs.v
theories/Arr2Props.v
theories/Ker3Proofs.v
theories/SincModel.v
theories/SincSpec.v
theories/SincProofs.v
theories/Sinc2Proofs.v
theories/SincProps.v
theories/HarModel.v
theories/HarProofs.v
theories/HarProps.v
theories/EnvSpec.v
theories/EnvModel.v
theories/EnvProofs.v
theories/EnvProps.v
theories/InitModel.v
theories/InitSpec.v
theories/InitProofs.v
theories/InitProps.v
theories/UtilModel.v
theories/UtilSpec.v
theories/UtilProofs.v
theories/UtilProps.v
theories/Render2Model.v
theories/Render2Proofs.v
theories/Render2Props.v
theories/PlotModel.v
theories/PlotSpec.v
theories/PlotProofs.v
theories/PlotProps.v
theories/CubicSpec.v
theories/CubicProofs.v
theories/CubicProps.v
theories/Scale4Proofs.v
theories/ResModel.v
theories/ResSpec.v
theories/ResProofs.v
theories/ResProps.v
theories/NestModel.v
theories/NestSpec.v
theories/NestProofs.v
theories/NestProps.v
theories/ParFailModel.v
theories/ParFailSpec.v
theories/ParFailProofs.v
theories/ParFailProps.v
theories/SeedModel.v
theories/SeedSpec.v
theories/SeedProofs.v
theories/SeedProps.v
theories/ConfModel.v
theories/ConfSpec.v
theories/ConfProofs.v
theories/ConfProps.v
theories/NameModel.v
theories/NameSpec.v
theories/NameProofs.v
theories/NameProps.v
theories/PendModel.v
theories/PendSpec.v
theories/PendProofs.v
theories/PendProps.v
theories/DblModel.v
theories/DblSpec.v
theories/DblProofs.v
theories/Dbl2Proofs.v
theories/DblProps.v
theories/DlineModel.v
theories/DlineSpec.v
theories/DlineProofs.v
theories/DlineProps.v
theories/DconvSpec.v
theories/DconvProofs.v
theories/DconvProps.v
theories/DfileModel.v
theories/DfileSpec.v
theories/DfileProofs.v
theories/DfileProps.v
theories/KerFejer.v
theories/DmavModel.v
theories/DmavSpec.v
theories/DmavProofs.v
theories/DmavProps.v
theories/FftRunProofs.v
theories/PiProofs.v
theories/CmodProofs.v
theories/DfftModel.v
theories/DfftSpec.v
theories/DfftProofs.v
theories/Dfft2Proofs.v
theories/Dfft3Proofs.v
theories/DfftUseProofs.v
theories/DfftProps.v
theories/FilterFailProofs.v
theories/Rand3Proofs.v
theories/A3Model.v
theories/A3Spec.v
theories/A3Proofs.v
theories/A3Props.v
theories/DkerModel.v
theories/DkerSpec.v
theories/DkerProofs.v
theories/Dker2Proofs.v
theories/Dker3Proofs.v
theories/DkerProps.v
theories/UniProofs.v
theories/DbandModel.v
theories/DbandSpec.v
theories/DbandProofs.v
theories/Dband2Proofs.v
theories/Dband3Proofs.v
theories/DbandProps.v
theories/DstatModel.v
theories/DstatSpec.v
theories/DstatProofs.v
theories/Dstat2Proofs.v
theories/Dstat3Proofs.v
theories/Dstat4Proofs.v
theories/Dstat5Proofs.v
theories/DstatProps.v
theories/AllocModel.v
theories/AllocProofs.v
theories/AllocProps.v
theories/DwaveSpec.v
theories/DwaveProofs.v
theories/DwaveProps.v
theories/ArrPlaceProofs.v
theories/DtoneSpec.v
theories/DtoneProofs.v
theories/DtoneProps.v
theories/PcopyModel.v
theories/PcopySpec.v
theories/PcopyProofs.v
theories/PcopyProps.v
theories/PathWinProofs.v
theories/DarrModel.v
theories/DarrSpec.v
theories/DarrProofs.v
theories/Darr2Proofs.v
theories/Darr3Proofs.v
theories/DarrProps.v
theories/DshapeModel.v
theories/DshapeProofs.v
theories/DshapeProps.v
theories/DupModel.v
theories/DupSpec.v
theories/DupProofs.v
theories/DupProps.v
theories/Scale5Proofs.v
theories/Har2Proofs.v
