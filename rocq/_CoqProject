-Q theories Verif
theories/CBase.v
theories/CircLib.v
theories/RingBufModel.v
theories/RingBufSpec.v
theories/RingBufProof.v
theories/Props_RingBuf.v
theories/RingBuffer2Model.v
theories/RingBuffer2Spec.v
theories/RingBuffer2Proof.v
theories/Props_RingBuffer.v
theories/MsgQueueModel.v
theories/MsgQueueSpec.v
theories/MsgQueueProof.v
theories/MsgQueueProof2.v
theories/Props_MsgQueue.v
theories/FixedQueueModel.v
theories/FixedQueueSpec.v
theories/FixedQueueProof.v
theories/Props_FixedQueue.v
theories/AutoCoverModel.v
theories/AutoCoverSpec.v
theories/AutoCoverProof.v
theories/Props_AutoCover.v
theories/IntegerModel.v
theories/IntegerSpec.v
theories/IntegerProof.v
theories/Props_Integer.v
theories/SeqLib.v
theories/Base64Model.v
theories/Base64Spec.v
theories/Base64Proof.v
theories/Props_Base64.v
theories/UrlModel.v
theories/UrlSpec.v
theories/UrlProof.v
theories/Props_Url.v
theories/CStr.v
theories/StringsModel.v
theories/StringsSpec.v
theories/StringsProof.v
theories/StringsProof2.v
theories/Props_Strings.v
theories/StringBuilderModel.v
theories/StringBuilderSpec.v
theories/StringBuilderProof.v
theories/Props_StringBuilder.v
theories/ArrayModel.v
theories/ArraySpec.v
theories/ArrayProof.v
theories/Props_Array.v
theories/HashmapModel.v
theories/HashmapSpec.v
theories/HashmapProof.v
theories/HashFnModel.v
theories/HashFnProof.v
theories/Props_Hashmap.v
theories/ListModel.v
theories/ListSpec.v
theories/ListProof.v
theories/ListProof2.v
theories/Props_List.v
theories/StrParamsModel.v
theories/StrParamsSpec.v
theories/StrParamsProof.v
theories/StrParamsProof2.v
theories/Props_StrParams.v
theories/MpliteModel.v
theories/MpliteSpec.v
theories/MpliteProof.v
theories/MpliteProof2.v
theories/MpliteProof3.v
theories/MpliteProof4.v
theories/MpliteProof5.v
theories/MpliteProof6.v
theories/Props_Mplite.v
theories/ThpoolModel.v
theories/ThpoolSpec.v
theories/ThpoolProof.v
theories/ThpoolProof2.v
theories/ThpoolProof3.v
theories/ThpoolProof4.v
theories/ThpoolProof5.v
theories/Props_Thpool.v
theories/SpscModel.v
theories/SpscSpec.v
theories/SpscProof.v
theories/SpscProof2.v
theories/SpscProof3.v
theories/SpscProof4.v
theories/Props_Spsc.v
theories/HandlerModel.v
theories/HandlerSpec.v
theories/HandlerProof.v
theories/HandlerProof2.v
theories/HandlerProof3.v
theories/HandlerProof4.v
theories/Props_Handler.v
theories/FHandlerModel.v
theories/FHandlerSpec.v
theories/FHandlerProof.v
theories/FHandlerProof2.v
theories/FHandlerProof3.v
theories/Props_FHandler.v
theories/TimeModel.v
theories/TimeSpec.v
theories/TimeProof.v
theories/TimeProof2.v
theories/Props_Time.v
theories/FileModel.v
theories/FileSpec.v
theories/FileProof.v
theories/FileProof2.v
theories/Props_File.v
theories/AllocModel.v
theories/AllocSpec.v
theories/AllocProof.v
theories/Props_Alloc.v
theories/IniReaderModel.v
theories/IniReaderSpec.v
theories/IniReaderProof.v
theories/IniReaderProof2.v
theories/IniModel.v
theories/IniSpec.v
theories/IniProof.v
theories/IniProof2.v
theories/IniProof3.v
theories/IniProof4.v
theories/IniProof5.v
theories/IniProof6.v
theories/Props_Ini.v
theories/XlogModel.v
theories/XlogSpec.v
theories/XlogProof.v
theories/XlogProof2.v
theories/XlogProof3.v
theories/XlogProof4.v
theories/Props_Xlog.v
theories/FileLoggerModel.v
theories/FileLoggerSpec.v
theories/FileLoggerProof.v
theories/FileLoggerProof2.v
theories/FileLoggerProof3.v
theories/FileLoggerProof4.v
theories/Props_FileLogger.v
theories/McsModel.v
theories/McsSpec.v
theories/McsProof.v
theories/McsProof2.v
theories/McsProof3.v
theories/McsProof4.v
theories/McsProof5.v
theories/McsProof6.v
theories/McsProof7.v
theories/Props_Mcs.v
theories/AutoCoverProof2.v
theories/ThreadLib.v
theories/CondModel.v
theories/CondSpec.v
theories/CondProof.v
theories/CondProof2.v
theories/CondProof3.v
theories/CondProof4.v
theories/CondProof5.v
theories/CondProof6.v
theories/CondProof7.v
theories/Props_Cond.v
theories/RwlockModel.v
theories/RwlockSpec.v
theories/RwlockProof.v
theories/RwlockProof2.v
theories/RwlockProof3.v
theories/RwlockProof4.v
theories/Props_Rwlock.v
theories/PthModel.v
theories/PthProof.v
theories/PthSpec.v
theories/PthProof2.v
theories/Props_Pth.v
theories/LazyModel.v
theories/LazySpec.v
theories/LazyProof.v
theories/LazyProof2.v
theories/Props_Lazy.v
theories/SemModel.v
theories/SemSpec.v
theories/SemProof.v
theories/Props_Sem.v
theories/RfcModel.v
theories/RfcSpec.v
theories/RfcProof.v
theories/Props_Rfc.v
theories/ClockModel.v
theories/Props_Clock.v
theories/InitModel.v
theories/InitSpec.v
theories/Props_Init.v
theories/PauseModel.v
theories/Props_Pause.v
theories/LifeModel.v
theories/LifeSpec.v
theories/LifeProof.v
theories/LifeProof2.v
theories/LifeProof3.v
theories/LifeProof4.v
theories/LifeProof5.v
theories/LifeProof6.v
theories/LifeProof7.v
theories/Props_Life.v
theories/VersModel.v
theories/VersSpec.v
theories/VersProof.v
theories/VersProof2.v
theories/Props_Vers.v
theories/DirModel.v
theories/DirSpec.v
theories/DirProof.v
theories/DirProof2.v
theories/Props_Dir.v
theories/DirProof3.v
theories/Props_Scan.v
theories/IterModel.v
theories/Props_Iter.v
theories/DlModel.v
theories/DlSpec.v
theories/DlProof.v
theories/DlProof2.v
theories/DlProof3.v
theories/DlProof4.v
theories/Props_Dl.v
theories/AddrModel.v
theories/AddrSpec.v
theories/Props_Addr.v
theories/IniFileModel.v
theories/Props_IniFile.v
theories/SlogModel.v
theories/Props_Slog.v
theories/FloatModel.v
theories/FloatProof.v
theories/FloatSpec.v
theories/FloatProof2.v
theories/FloatProof3.v
theories/FloatProof4.v
theories/Props_Float.v
theories/TpLifeModel.v
theories/TpLifeSpec.v
theories/TpLifeProof.v
theories/TpLifeProof2.v
theories/TpLifeProof3.v
theories/TpLifeProof4.v
theories/Props_TpLife.v
theories/IniLifeModel.v
theories/IniLifeSpec.v
theories/IniLifeProof.v
theories/IniLifeProof2.v
theories/IniLifeProof3.v
theories/IniLifeProof4.v
theories/IniLifeProof5.v
theories/Props_IniLife.v
theories/FloatText.v
theories/MpStatsModel.v
theories/MpStatsSpec.v
theories/MpStatsProof.v
theories/Props_MpStats.v
theories/XlogMtModel.v
theories/XlogMtSpec.v
theories/XlogMtProof.v
theories/XlogMtProof2.v
theories/XlogMtProof3.v
theories/Props_XlogMt.v
theories/XlogMtProof4.v
theories/XlogMtProof5.v
theories/XlogMtProof6.v
theories/RbMtModel.v
theories/RbMtSpec.v
theories/RbMtProof.v
theories/RbMtProof2.v
theories/RbMtProof3.v
theories/RbMtProof4.v
theories/RbMtProof5.v
theories/Props_RbMt.v
theories/LockModel.v
theories/LockSpec.v
theories/LockProof.v
theories/LockObjModel.v
theories/LockObjProof.v
theories/LockObjSpec.v
theories/LockObjProof2.v
theories/LockObjProof3.v
theories/Props_LockObj.v
theories/AlMtModel.v
theories/AlMtSpec.v
theories/AlMtProof.v
theories/AlMtProof2.v
theories/AlMtProof3.v
theories/AlMtProof4.v
theories/AlMtProof5.v
theories/AlMtProof6.v
theories/Props_AlMt.v
theories/IniFloatModel.v
theories/IniFloatSpec.v
theories/IniFloatProof.v
theories/Props_IniFloat.v
theories/MpMtModel.v
theories/MpMtProof.v
theories/MpMtProof2.v
theories/MpMtProof3.v
theories/MpMtSpec.v
theories/MpMtProof4.v
theories/MpMtProof5.v
theories/MpMtProof6.v
theories/MpMtProof7.v
theories/MpMtProof8.v
theories/Props_MpMt.v
theories/RgMtModel.v
theories/RgMtSpec.v
theories/RgMtProof.v
theories/RgMtProof2.v
theories/Props_RgMt.v
theories/RgTsoModel.v
theories/RgTsoSpec.v
theories/RgTsoProof.v
theories/RgTsoProof2.v
theories/RgTsoProof3.v
theories/Props_RgTso.v
theories/RbTsoModel.v
theories/RbTsoSpec.v
theories/RbTsoProof.v
theories/RbTsoProof2.v
theories/RbTsoProof3.v
theories/Props_RbTso.v
theories/MqTsoModel.v
theories/MqTsoSpec.v
theories/MqTsoProof.v
theories/MqTsoProof2.v
theories/MqTsoProof3.v
theories/Props_MqTso.v
theories/LogCrashModel.v
theories/LogCrashSpec.v
theories/LogCrashProof.v
theories/Props_LogCrash.v
theories/HdTsoModel.v
theories/HdTsoSpec.v
theories/HdTsoProof.v
theories/HdTsoProof2.v
theories/HdTsoProof3.v
theories/Props_HdTso.v
theories/McsTsoModel.v
theories/McsTsoSpec.v
theories/McsTsoProof.v
theories/McsTsoProof2.v
theories/Props_McsTso.v
theories/FhTsoModel.v
theories/FhTsoSpec.v
theories/FhTsoProof.v
theories/FhTsoProof2.v
theories/FhTsoProof3.v
theories/FhTsoProof4.v
theories/FhTsoProof5.v
theories/Props_FhTso.v
theories/HandlerSpec2.v
theories/HandlerProof5.v
theories/FHandlerSpec2.v
theories/FHandlerProof4.v
theories/FhTsoProof6.v
theories/HdTsoProof4.v
