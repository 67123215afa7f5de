-Q theories Verif
theories/BitmapModel.v
theories/BitmapSpec.v
theories/BitmapProofs.v
theories/BitmapProps.v
theories/RbuffModel.v
theories/RbuffSpec.v
theories/RbuffProofs.v
theories/RbuffProps.v
theories/PftModel.v
theories/PftSpec.v
theories/PftProofs.v
theories/PftProps.v
theories/PffModel.v
theories/PffSpec.v
theories/PffProofs.v
theories/PffProps.v
theories/SeqNoModel.v
theories/SeqNoProofs.v
theories/SeqNoProps.v
theories/TimeOpsModel.v
theories/TimeOpsProofs.v
theories/TimeOpsProps.v
theories/QosModel.v
theories/QosProps.v
theories/DuBuffModel.v
theories/DuBuffSpec.v
theories/DuBuffProofs.v
theories/DuBuffProps.v
theories/RdrbuffModel.v
theories/RdrbuffSpec.v
theories/RdrbuffProofs.v
theories/RdrbuffProps.v
theories/Bytes.v
theories/DtModel.v
theories/DtSpec.v
theories/DtProofs.v
theories/DtProps.v
theories/FaModel.v
theories/FaSpec.v
theories/FaProofs.v
theories/FaProps.v
theories/ShimModel.v
theories/ShimSpec.v
theories/ShimProofs.v
theories/ShimProps.v
theories/MbEcnModel.v
theories/MbEcnSpec.v
theories/MbEcnProofs.v
theories/MbEcnProps.v
theories/CrcModel.v
theories/CrcSpec.v
theories/CrcProofs.v
theories/CrcProps.v
theories/BTreeModel.v
theories/BTreeSpec.v
theories/BTreeProofs.v
theories/BTreeProofs2.v
theories/BTreeProofs3.v
theories/BTreeProofs4.v
theories/BTreeProps.v
theories/GraphSpec.v
theories/GraphModel.v
theories/GraphProofs.v
theories/GraphProofs2.v
theories/GraphProofs3.v
theories/GraphProofs4.v
theories/GraphProofs5.v
theories/GraphProofs6.v
theories/GraphProps.v
theories/LsSpec.v
theories/LsModel.v
theories/LsProofs.v
theories/LsProofs2.v
theories/LsProofs3.v
theories/LsProofs4.v
theories/LsProofs5.v
theories/LsProps.v
theories/MbEcnProps2.v
theories/FrctModel.v
theories/FrctSpec.v
theories/FrctProofs.v
theories/FrctProofs2.v
theories/FrctProofs3.v
theories/FrctRun.v
theories/FrctProps.v
theories/FrctProps2.v
theories/FrctProps3.v
theories/FrctProps4.v
theories/FrctWireModel.v
theories/FrctWireProps.v
theories/LsProps2.v
theories/DevReadModel.v
theories/DevReadProps.v
theories/FsetModel.v
theories/FsetSpec.v
theories/FsetProps.v
theories/FqModel.v
theories/FqProps.v
theories/TwModel.v
theories/TwProofs.v
theories/TwProps.v
theories/TwProps2.v
theories/TwAckProps.v
theories/DhtModel.v
theories/DhtLookupProps.v
theories/DhtStoreModel.v
theories/DhtStoreProps.v
theories/DhtBucketModel.v
theories/DhtBucketProps.v
theories/DhtMsgModel.v
theories/DhtMsgProps.v
theories/RegModel.v
theories/RegSpec.v
theories/RegProofs.v
theories/RegFlowProps.v
theories/RegBindProofs.v
theories/RegBindProps.v
theories/RegAcceptProps.v
theories/Sha3Model.v
theories/Sha3Spec.v
theories/Sha3Proofs.v
theories/Sha3Proofs2.v
theories/Sha3Props.v
theories/Md5Model.v
theories/Md5Spec.v
theories/Md5Proofs.v
theories/Md5Proofs2.v
theories/Md5Props.v
theories/DevFlowModel.v
theories/DevFlowSpec.v
theories/DevFlowProofs.v
theories/DevFlowProps.v
theories/DevWaitModel.v
theories/DevWaitProps.v
theories/DevKaModel.v
theories/DevKaSpec.v
theories/DevKaProofs.v
theories/DevKaProps.v
theories/DevCtlModel.v
theories/DevCtlSpec.v
theories/DevCtlProps.v
theories/DevTxModel.v
theories/DevTxSpec.v
theories/DevTxProps.v
theories/IpcpAllocModel.v
theories/IpcpAllocProps.v
theories/LocalModel.v
theories/LocalSpec.v
theories/LocalProofs.v
theories/LocalProps.v
theories/WireModel.v
theories/WireProofs.v
theories/EnrollModel.v
theories/EnrollSpec.v
theories/EnrollProps.v
theories/CepModel.v
theories/CepSpec.v
theories/CepProps.v
theories/ConnMgrModel.v
theories/ConnMgrSpec.v
theories/ConnMgrProps.v
theories/BcastModel.v
theories/BcastSpec.v
theories/BcastProps.v
theories/BcastNetProps.v
theories/RbllModel.v
theories/RbllSpec.v
theories/RbllProps.v
theories/TpmModel.v
theories/TpmSpec.v
theories/TpmProps.v
theories/NotifierModel.v
theories/NotifierSpec.v
theories/NotifierProps.v
theories/UdpModel.v
theories/UdpSpec.v
theories/UdpProps.v
theories/EthDixModel.v
theories/EthDixSpec.v
theories/EthDixProps.v
theories/EthLlcModel.v
theories/EthLlcSpec.v
theories/EthLlcProps.v
theories/PschedModel.v
theories/PschedSpec.v
theories/PschedProps.v
theories/IrmModel.v
theories/IrmSpec.v
theories/IrmProofs.v
theories/IrmProps.v
theories/PathModel.v
theories/PathSpec.v
theories/PathProps.v
theories/IpcpCmdModel.v
theories/IpcpCmdSpec.v
theories/IpcpCmdProps.v
theories/LifeModel.v
theories/LifeSpec.v
theories/LifeProps.v
theories/LockModel.v
theories/LockSpec.v
theories/LockProps.v
theories/RibModel.v
theories/RibSpec.v
theories/RibProps.v
theories/StatModel.v
theories/StatSpec.v
theories/StatProps.v
theories/BootModel.v
theories/BootSpec.v
theories/BootProofs.v
theories/BootProps.v
theories/ListModel.v
theories/ListSpec.v
theories/ListProofs.v
theories/ListProps.v
theories/UtilModel.v
theories/UtilSpec.v
theories/UtilProps.v
theories/IrmFlowModel.v
theories/IrmFlowSpec.v
theories/IrmFlowProps.v
theories/IrmIpcpModel.v
theories/IrmIpcpSpec.v
theories/IrmIpcpProps.v
theories/IrmLayerModel.v
theories/IrmLayerSpec.v
theories/IrmLayerProps.v
