-Q theories Verif
theories/Bytes.v
theories/BitToolsModel.v
theories/BitToolsSpec.v
theories/BitToolsProofs.v
theories/BitToolsProps.v
theories/UtcTimeModel.v
theories/UtcTimeSpec.v
theories/UtcTimeProofs.v
theories/Float64.v
theories/QuantizedModel.v
theories/QuantizedProofs.v
theories/UtcTimeProps.v
theories/QuantizedProps.v
theories/CircularBufferModel.v
theories/CircularBufferSpec.v
theories/CircularBufferProofs.v
theories/CircularBufferProps.v
theories/CrcModel.v
theories/CrcSpec.v
theories/CrcProofs.v
theories/CrcProps.v
theories/UbxModel.v
theories/UbxSpec.v
theories/UbxProofs.v
theories/UbxProps.v
theories/EphModel.v
theories/EphSpec.v
theories/EphProofs.v
theories/GpsModel.v
theories/GpsSpec.v
theories/GpsProofs.v
theories/GpsProps.v
theories/GalModel.v
theories/GalSpec.v
theories/GalProofs.v
theories/GalProps.v
theories/GloModel.v
theories/GloSpec.v
theories/GloProofs.v
theories/GloProps.v
theories/SerializeModel.v
theories/SerializeSpec.v
theories/SerializeProofs.v
theories/SerializeProps.v
theories/UtcDoubleModel.v
theories/UtcDoubleProofs.v
theories/UtcDoubleProps.v
theories/LogModel.v
theories/LogSpec.v
theories/LogProofs.v
theories/MaintProofs.v
theories/LogProps.v
theories/LogNameModel.v
theories/LogNameSpec.v
theories/LogNameProofs.v
theories/LogNameProps.v
theories/LogDirModel.v
theories/LogDirSpec.v
theories/LogDirProofs.v
theories/LogDirProps.v
theories/SatModel.v
theories/SatSpec.v
theories/SatProofs.v
theories/SatCloseProofs.v
theories/SatProps.v
theories/EstModel.v
theories/EstSpec.v
theories/EstTimeProofs.v
theories/EstProofs.v
theories/EstSafeProofs.v
theories/EstProps.v
theories/RotModel.v
theories/RotSpec.v
theories/RotProofs.v
theories/RotTrigProofs.v
theories/RotExpProofs.v
theories/RotNearProofs.v
theories/RotMatProofs.v
theories/RotPiProofs.v
theories/RotDqProofs.v
theories/RotLogProofs.v
theories/RotDerivProofs.v
theories/RotJacNearProofs.v
theories/RotMoreProofs.v
theories/RotProps.v
theories/GeoModel.v
theories/GeoSpec.v
theories/GeoProofs.v
theories/GeoNedProofs.v
theories/GeoTripProofs.v
theories/GeoLlaProofs.v
theories/GeoProps.v
theories/LinSpec.v
theories/LinProofs.v
theories/LamModel.v
theories/LamSpec.v
theories/LamProofs.v
theories/LamTermProofs.v
theories/LamSearchProofs.v
theories/LamBestProofs.v
theories/LamCaseProofs.v
theories/LamProps.v
theories/PidModel.v
theories/PidSpec.v
theories/PidProofs.v
theories/PidCaseProofs.v
theories/PidProps.v
theories/StrModel.v
theories/StrSpec.v
theories/StrProofs.v
theories/StrProps.v
theories/CalModel.v
theories/CalSpec.v
theories/CalProofs.v
theories/CalTextProofs.v
theories/CalProps.v
theories/KalModel.v
theories/KalSpec.v
theories/KalProofs.v
theories/KalCaseProofs.v
theories/KalProps.v
theories/SymModel.v
theories/SymSpec.v
theories/SymProofs.v
theories/SymSimpProofs.v
theories/SymMeanProofs.v
theories/SymCaseProofs.v
theories/SymProps.v
theories/OrbModel.v
theories/OrbSpec.v
theories/OrbKepProofs.v
theories/OrbProofs.v
theories/OrbVelProofs.v
theories/OrbGloProofs.v
theories/OrbCaseProofs.v
theories/OrbProps.v
theories/AtmModel.v
theories/AtmSpec.v
theories/AtmProofs.v
theories/AtmIonoProofs.v
theories/AtmTimeProofs.v
theories/AtmProps.v
theories/ImuModel.v
theories/ImuSpec.v
theories/ImuProofs.v
theories/ImuResProofs.v
theories/ImuCovProofs.v
theories/ImuSplitProofs.v
theories/ImuCaseProofs.v
theories/ImuProps.v
theories/EkfModel.v
theories/EkfSpec.v
theories/EkfProofs.v
theories/EkfDynProofs.v
theories/EkfCaseProofs.v
theories/EkfPlusProofs.v
theories/EkfSignProofs.v
theories/EkfProps.v
theories/FacModel.v
theories/FacSpec.v
theories/FacProofs.v
theories/FacPhaseProofs.v
theories/FacCaseProofs.v
theories/FacProps.v
theories/SimModel.v
theories/SimSpec.v
theories/SimCarProofs.v
theories/SimSensorProofs.v
theories/SimRangeProofs.v
theories/SimRateProofs.v
theories/SimCaseProofs.v
theories/SimProps.v
theories/JacModel.v
theories/JacSpec.v
theories/JacProofs.v
theories/JacExpProofs.v
theories/JacNearProofs.v
theories/JacLogProofs.v
theories/JacMatProofs.v
theories/JacCaseProofs.v
theories/JacOriginProofs.v
theories/JacFacProofs.v
theories/JacProps.v
theories/ImuBiasModel.v
theories/ImuRotSpec.v
theories/ImuRotProofs.v
theories/ImuBiasProofs.v
theories/ImuRotProps.v
theories/GatModel.v
theories/GatSpec.v
theories/GatProofs.v
theories/GatOriginProofs.v
theories/GatCaseProofs.v
theories/GatProps.v
theories/CfgModel.v
theories/CfgSpec.v
theories/CfgProofs.v
theories/CfgProps.v
theories/PostModel.v
theories/PostSpec.v
theories/PostProofs.v
theories/PostProps.v
theories/GenModel.v
theories/GenSpec.v
theories/GenProofs.v
theories/GenProps.v
theories/NumModel.v
theories/NumSpec.v
theories/NumProofs.v
theories/NumQuatProofs.v
theories/NumFloatProofs.v
theories/NumProps.v
theories/UtilModel.v
theories/UtilSpec.v
theories/UtilProofs.v
theories/UtilProps.v
theories/EstOrderSpec.v
theories/EstOrderProofs.v
theories/EstOrderProps.v
theories/CfgUbxModel.v
theories/CfgUbxSpec.v
theories/CfgUbxProofs.v
theories/CfgUbxProps.v
theories/ViewModel.v
theories/ViewSpec.v
theories/ViewProofs.v
theories/ViewCaseProofs.v
theories/ViewProps.v
theories/BufCopyModel.v
theories/BufCopySpec.v
theories/BufCopyProofs.v
theories/BufCopyProps.v
theories/GraphModel.v
theories/GraphSpec.v
theories/GraphProofs.v
theories/GraphProps.v
theories/RectModel.v
theories/RectSpec.v
theories/RectProofs.v
theories/RectCaseProofs.v
theories/RectProps.v
theories/NoiseModel.v
theories/NoiseSpec.v
theories/NoiseProofs.v
theories/NoiseProps.v
theories/ErrModel.v
theories/ErrSpec.v
theories/ErrProofs.v
theories/ErrProps.v
theories/NextModel.v
theories/NextSpec.v
theories/NextProofs.v
theories/NextProps.v
theories/ReopenProofs.v
theories/ReopenProps.v
theories/VerModel.v
theories/VerSpec.v
theories/VerProofs.v
theories/VerProps.v
theories/LoadModel.v
theories/LoadSpec.v
theories/LoadProofs.v
theories/LoadProps.v
theories/StepModel.v
theories/StepSpec.v
theories/StepProofs.v
theories/StepProps.v
theories/Num3Model.v
theories/Num3Spec.v
theories/Num3Proofs.v
theories/Num3LimProofs.v
theories/Num3CaseProofs.v
theories/Num3Props.v
theories/StkModel.v
theories/StkSpec.v
theories/StkProofs.v
theories/StkProps.v
theories/SrtModel.v
theories/SrtSpec.v
theories/SrtProofs.v
theories/SrtProps.v
theories/NumLimProofs.v
theories/NumLimProps.v
theories/MoModel.v
theories/MoProofs.v
theories/MoProps.v
theories/AdpModel.v
theories/AdpSpec.v
theories/AdpProofs.v
theories/AdpProps.v
