-Q theories Verif
theories/Common.v
theories/AtoiModel.v
theories/AtoiSpec.v
theories/AtoiProof.v
theories/ItoaModel.v
theories/ItoaProof.v
theories/NumProps.v
theories/StreamModel.v
theories/StreamProps.v
theories/EndianModel.v
theories/EndianProps.v
theories/SerializerModel.v
theories/SerializerProps.v
theories/Text.v
theories/Base64Model.v
theories/Base64Spec.v
theories/Base64Proof.v
theories/Base64Props.v
theories/Utf8Model.v
theories/Utf8Spec.v
theories/Utf8Props.v
theories/StrOpModel.v
theories/StrOpProps.v
theories/CsvModel.v
theories/CsvProps.v
theories/LineModel.v
theories/LineProps.v
theories/BitVecModel.v
theories/BitVecProof.v
theories/BitVecProps.v
theories/Cnt.v
theories/SucModel.v
theories/SucProof.v
theories/SucProof2.v
theories/SucProps.v
theories/WaveletModel.v
theories/WaveletProof.v
theories/WaveletProps.v
theories/ShaModel.v
theories/ShaSpec.v
theories/ShaProof.v
theories/ShaProof2.v
theories/ShaProps.v
theories/HashModel.v
theories/HashProps.v
theories/RandModel.v
theories/RandProps.v
theories/ArrayModel.v
theories/ArrayProps.v
theories/ConfigModel.v
theories/ConfigProps.v
theories/OptionModel.v
theories/OptionProps.v
theories/XmlModel.v
theories/XmlProps.v
theories/TimeModel.v
theories/TimeProps.v
theories/SparseModel.v
theories/SparseProps.v
theories/TopScoreModel.v
theories/TopScoreProps.v
theories/FrequencyModel.v
theories/FrequencyProps.v
theories/ParallelModel.v
theories/ParallelProps.v
theories/EventModel.v
theories/EventProps.v
theories/HandleModel.v
theories/HandleProps.v
theories/TransferModel.v
theories/TransferProps.v
theories/FileNameModel.v
theories/FileNameProps.v
theories/ZlibModel.v
theories/ZlibProps.v
theories/TfIdfModel.v
theories/TfIdfProps.v
theories/CSucModel.v
theories/CSucProps.v
theories/FmModel.v
theories/FmCore.v
theories/FmProof.v
theories/FmInit.v
theories/FmProps.v
theories/SaisModel.v
theories/SaisType.v
theories/SaisInduce.v
theories/SaisRefine.v
theories/SaisKeys.v
theories/SaisStage.v
theories/SaisLms.v
theories/SaisSort.v
theories/SaisProps.v
theories/SaisBwt.v
theories/SaisBwtProps.v
theories/ProcessModel.v
theories/ProcessProps.v
theories/LogModel.v
theories/LogProps.v
theories/CondModel.v
theories/CondProps.v
theories/TlsModel.v
theories/TlsProps.v
theories/MmapModel.v
theories/MmapProps.v
theories/StringModel.v
theories/StringProps.v
theories/V128Model.v
theories/V128Props.v
theories/TestModel.v
theories/TestProps.v
theories/BenchModel.v
theories/BenchProps.v
theories/JsonModel.v
theories/JsonProps.v
theories/SslModel.v
theories/SslProps.v
theories/CryptoModel.v
theories/CryptoProps.v
theories/MonitorModel.v
theories/MonitorProps.v
theories/NlpRandModel.v
theories/NlpRandProps.v
theories/ExceptionModel.v
theories/ExceptionProps.v
theories/DesymbolModel.v
theories/DesymbolProps.v
theories/EnvModel.v
theories/EnvProps.v
theories/QuitModel.v
theories/QuitProps.v
theories/PlsiModel.v
theories/PlsiProps.v
theories/PlsiUse.v
theories/PlsiReal.v
theories/SvdModel.v
theories/SvdProps.v
theories/SvdReal.v
theories/SvdFileModel.v
theories/SvdFileProps.v
theories/MecabModel.v
theories/MecabProps.v
theories/RegexModel.v
theories/RegexProps.v
theories/FormatModel.v
theories/FormatProps.v
theories/FileModel.v
theories/FileProps.v
theories/SocketModel.v
theories/SocketProps.v
theories/AddrModel.v
theories/AddrProps.v
theories/PathModel.v
theories/PathProps.v
theories/StrIoModel.v
theories/StrIoProps.v
theories/ThreadModel.v
theories/ThreadProps.v
theories/AtomicModel.v
theories/AtomicProps.v
theories/OptIoModel.v
theories/OptIoProps.v
theories/BigramModel.v
theories/BigramProps.v
theories/XmlObjModel.v
theories/XmlObjProps.v
theories/EvpModel.v
theories/EvpProps.v
theories/CsvFileModel.v
theories/CsvFileProps.v
theories/ConfigGetModel.v
theories/ConfigGetProps.v
theories/FmSampleModel.v
theories/FmSampleProps.v
theories/SparseThreadModel.v
theories/SparseThreadProps.v
theories/ZlibBufModel.v
theories/ZlibBufProps.v
theories/CSucSampleModel.v
theories/CSucSampleProps.v
theories/Option2Model.v
theories/Option2Props.v
theories/OptionMsgModel.v
theories/OptionMsgProps.v
theories/OptionAgainProps.v
theories/Select8GenModel.v
theories/Select8GenProps.v
theories/SvdCmdModel.v
theories/SvdCmdProps.v
theories/SerTruncProps.v
theories/StreamingProps.v
theories/ZlibFailModel.v
theories/ZlibFailProps.v
theories/SaveModel.v
theories/SaveProps.v
theories/RandDevModel.v
theories/RandDevProps.v
theories/SocketSmplModel.v
theories/SocketSmplProps.v
theories/ClockModel.v
theories/ClockProps.v
theories/AllocaModel.v
theories/AllocaProps.v
theories/SslSmplModel.v
theories/SslSmplProps.v
theories/LoadModel.v
theories/LoadProps.v
theories/WmBenchModel.v
theories/WmBenchProps.v
theories/MecabSmplModel.v
theories/MecabSmplProps.v
