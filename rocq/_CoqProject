-Q theories Verif
theories/Prelude.v
theories/PreludeFacts.v
theories/GeoModel.v
theories/GeoSpec.v
theories/GeoProofs.v
theories/GeoProps.v
theories/SizeModel.v
theories/SizeSpec.v
theories/SizeProofs.v
theories/SizePowers.v
theories/SizeProps.v
theories/FlipModel.v
theories/FlipSpec.v
theories/FlipProofs.v
theories/FlipProps.v
theories/ExtractModel.v
theories/ExtractSpec.v
theories/ExtractProofs.v
theories/ExtractProps.v
theories/AugModel.v
theories/AugSpec.v
theories/AugProofs.v
theories/AugChildren.v
theories/AugRepro.v
theories/AugSeed.v
theories/AugDet.v
theories/AugCols.v
theories/AugQuery.v
theories/AugToy.v
theories/AugProps.v
theories/PoolModel.v
theories/PoolSpec.v
theories/PoolProofs.v
theories/PoolBackground.v
theories/PoolProps.v
theories/UtilModel.v
theories/UtilSpec.v
theories/UtilProofs.v
theories/UtilProps.v
theories/ChanModel.v
theories/ChanSpec.v
theories/ChanProofs.v
theories/ChanProps.v
theories/PtsModel.v
theories/PtsSpec.v
theories/PtsProofs.v
theories/PtsProps.v
theories/DtyModel.v
theories/DtySpec.v
theories/DtyProofs.v
theories/DtyProps.v
theories/RngModel.v
theories/RngSpec.v
theories/RngProofs.v
theories/RngProps.v
theories/MapModel.v
theories/MapSpec.v
theories/MapProofs.v
theories/MapProps.v
theories/NormModel.v
theories/NormSpec.v
theories/NormProofs.v
theories/NormProps.v
theories/InvModel.v
theories/InvSpec.v
theories/InvProofs.v
theories/InvProps.v
theories/AriModel.v
theories/AriSpec.v
theories/AriProofs.v
theories/AriProps.v
theories/DropModel.v
theories/DropSpec.v
theories/DropProofs.v
theories/DropProps.v
theories/BlendModel.v
theories/BlendSpec.v
theories/BlendProofs.v
theories/BlendProps.v
theories/RotModel.v
theories/RotSpec.v
theories/RotProofs.v
theories/RotProps.v
theories/JigModel.v
theories/JigSpec.v
theories/JigProofs.v
theories/JigProps.v
theories/ParModel.v
theories/ParSpec.v
theories/ParProofs.v
theories/ParProps.v
theories/AffModel.v
theories/AffSpec.v
theories/AffProofs.v
theories/AffProps.v
theories/FltProofs.v
theories/LutModel.v
theories/LutSpec.v
theories/LutProofs.v
theories/LutProps.v
theories/LineModel.v
theories/LineSpec.v
theories/LineProofs.v
theories/LineClip.v
theories/LineBox.v
theories/LineRest.v
theories/LineLen.v
theories/LineProps.v
theories/PspModel.v
theories/PspSpec.v
theories/PspProofs.v
theories/PspShape.v
theories/PspRest.v
theories/PspProps.v
theories/KeepModel.v
theories/KeepSpec.v
theories/KeepProofs.v
theories/KeepRest.v
theories/KeepPool.v
theories/KeepProps.v
theories/SegModel.v
theories/SegSpec.v
theories/SegProofs.v
theories/SegRest.v
theories/SegPts.v
theories/SegSamp.v
theories/SegAug.v
theories/SegProps.v
theories/PolyModel.v
theories/PolySpec.v
theories/PolyProofs.v
theories/PolyProps.v
theories/ApiModel.v
theories/ApiSpec.v
theories/ApiProofs.v
theories/ApiProps.v
theories/ChkModel.v
theories/ChkSpec.v
theories/ChkProofs.v
theories/ChkProps.v
theories/CpyModel.v
theories/CpySpec.v
theories/CpyProofs.v
theories/CpyProps.v
theories/ConvModel.v
theories/ConvSpec.v
theories/ConvProofs.v
theories/ConvProps.v
theories/RszModel.v
theories/RszSpec.v
theories/RszProofs.v
theories/RszProps.v
theories/DrawModel.v
theories/DrawSpec.v
theories/DrawProofs.v
theories/DrawProps.v
theories/ColModel.v
theories/ColSpec.v
theories/ColProofs.v
theories/ColProps.v
theories/MeaModel.v
theories/MeaSpec.v
theories/MeaProofs.v
theories/MeaProps.v
theories/FxModel.v
theories/FxSpec.v
theories/FxProofs.v
theories/FxProps.v
theories/CtrModel.v
theories/CtrSpec.v
theories/CtrProofs.v
theories/CtrProofs2.v
theories/CtrProofs3.v
theories/CtrProps.v
theories/CorModel.v
theories/CorSpec.v
theories/CorProofs.v
theories/CorProofs2.v
theories/CorProofs3.v
theories/CorProps.v
theories/RanModel.v
theories/RanSpec.v
theories/RanProofs.v
theories/RanProps.v
theories/SavModel.v
theories/SavSpec.v
theories/SavProofs.v
theories/SavProps.v
theories/ChoModel.v
theories/ChoSpec.v
theories/ChoProofs.v
theories/ChoProps.v
theories/CarModel.v
theories/CarSpec.v
theories/CarProofs.v
theories/CarProps.v
