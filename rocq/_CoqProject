-Q theories Verif

theories/AliasModel.v
theories/AliasProperties.v
theories/AliasSpec.v
theories/AssignProofs.v
theories/AssignProperties.v
theories/AssignSpec.v
theories/Base.v
theories/BaseFacts.v
theories/BoundsFullProofs.v
theories/BoundsFullProperties.v
theories/BoundsFullSpec.v
theories/BoundsModel.v
theories/BoundsProofs.v
theories/BoundsProperties.v
theories/BoundsSpec.v
theories/BuildFullProperties.v
theories/BuildFullSpec.v
theories/BuildModel.v
theories/BuildProofs.v
theories/BuildProperties.v
theories/BuildSpec.v
theories/BumpModel.v
theories/BumpProofs.v
theories/BumpProperties.v
theories/BumpSpec.v
theories/CacheModel.v
theories/CacheProofs.v
theories/CacheProperties.v
theories/CacheSpec.v
theories/CacheTexts.v
theories/CakeModel.v
theories/CakeProperties.v
theories/CakeSpec.v
theories/CidFullProofs.v
theories/CidFullProperties.v
theories/CidFullSpec.v
theories/CidModel.v
theories/CidProofs.v
theories/CidProperties.v
theories/CidSpec.v
theories/DepsModel.v
theories/DepsProofs.v
theories/DepsProperties.v
theories/DepsSpec.v
theories/DictAgree.v
theories/DictFloat.v
theories/DictFullProofs.v
theories/DictFullProperties.v
theories/DictFullSpec.v
theories/DictModel.v
theories/DictProofs.v
theories/DictProperties.v
theories/DictRound.v
theories/DictSpec.v
theories/DictUnique.v
theories/EqCopies.v
theories/EqModel.v
theories/EqProofs.v
theories/EqProperties.v
theories/EqSpec.v
theories/FileModel.v
theories/FileProperties.v
theories/FlattenProofs.v
theories/FlattenProperties.v
theories/FloatModel.v
theories/FloatProofs.v
theories/FloatProperties.v
theories/FloatSpec.v
theories/FloatValues.v
theories/GraphModel.v
theories/GraphProofs.v
theories/GraphProperties.v
theories/GraphSpec.v
theories/InPlaceCopy.v
theories/InPlaceExamples.v
theories/InPlaceHeap.v
theories/InPlaceLinks.v
theories/InPlaceModel.v
theories/InPlaceObjects.v
theories/InPlaceProofs.v
theories/InPlaceProperties.v
theories/InPlaceSpec.v
theories/IngestModel.v
theories/IngestProperties.v
theories/IngestSpec.v
theories/InstModel.v
theories/InstProofs.v
theories/InstProperties.v
theories/InstSpec.v
theories/JtextModel.v
theories/JtextProofs.v
theories/JtextProperties.v
theories/JtextSpec.v
theories/JtextTree.v
theories/KeywordModel.v
theories/LexBlocks.v
theories/LexFactors.v
theories/LexProofs.v
theories/LexProperties.v
theories/LexSpec.v
theories/LexTokens.v
theories/LinkModel.v
theories/LinkProofs.v
theories/LinkProperties.v
theories/LinkSpec.v
theories/LoadAnyProofs.v
theories/LoadAnyProperties.v
theories/LoadAnySpec.v
theories/LoadLinkProofs.v
theories/LoadLinkProperties.v
theories/LoadLinkSpec.v
theories/LoadProofs.v
theories/MetaModel.v
theories/MetaProperties.v
theories/MetaSpec.v
theories/NestProofs.v
theories/NestProperties.v
theories/NestShare.v
theories/NestSpec.v
theories/PyStr.v
theories/RaceModel.v
theories/RaceProperties.v
theories/RaceSpec.v
theories/ReModel.v
theories/ReProofs.v
theories/ReProperties.v
theories/ReSpec.v
theories/RegModel.v
theories/RegProofs.v
theories/RegProperties.v
theories/RegSpec.v
theories/ReprModel.v
theories/ReprProofs.v
theories/ReprProperties.v
theories/ReprSpec.v
theories/RoundTripEq.v
theories/RoundTripProofs.v
theories/RoundTripProperties.v
theories/SacModel.v
theories/SacProofs.v
theories/SacProperties.v
theories/SacSpec.v
theories/ScaleMangle.v
theories/ScaleModel.v
theories/ScaleParse.v
theories/ScaleProperties.v
theories/ScaleSci.v
theories/ScaleShow.v
theories/ScaleSpec.v
theories/ScaleUnmangle.v
theories/ScaleWhole.v
theories/SerialEntity.v
theories/SerialExamples.v
theories/SerialLinks.v
theories/SerialModel.v
theories/SerialProofs.v
theories/SerialRecords.v
theories/SerialSim.v
theories/SerialSpec.v
theories/ShareModel.v
theories/ShareProofs.v
theories/ShareProperties.v
theories/ShareSpec.v
theories/SliceModel.v
theories/SliceProofs.v
theories/SliceProperties.v
theories/SliceSpec.v
theories/SubstProperties.v
theories/TextModel.v
theories/TextProofs.v
theories/TextProperties.v
theories/TextSpec.v
theories/ThinModel.v
theories/ThinProofs.v
theories/ThinProperties.v
theories/ThinSpec.v
theories/ThreadModel.v
theories/ThreadProperties.v
theories/ThreadSpec.v
theories/TmplModel.v
theories/TmplProperties.v
theories/TmplSpec.v
theories/TravFullModel.v
theories/TravFullProofs.v
theories/TravFullProperties.v
theories/TravFullSpec.v
theories/TravModel.v
theories/TravProofs.v
theories/TravProperties.v
theories/TravSpec.v
theories/ValidFullProofs.v
theories/ValidFullProperties.v
theories/ValidFullSpec.v
theories/ValidationModel.v
theories/ValidationProofs.v
theories/ValidationProperties.v
theories/ValidationSpec.v
theories/ValuesModel.v
theories/ValuesProofs.v
theories/ValuesProperties.v
theories/ValuesSpec.v
theories/ViewModel.v
theories/ViewProofs.v
theories/ViewProperties.v
theories/ViewSpec.v
theories/VlModel.v
theories/VlProofs.v
theories/VlProperties.v
theories/VlSpec.v
theories/WeaveModel.v
theories/WeaveProperties.v
theories/WeaveSpec.v
