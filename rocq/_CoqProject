-Q theories Verif
theories/Base.v
theories/Base64_Model.v
theories/Base64_Proofs.v
theories/Base64_Props.v
theories/Base64_Spec.v
theories/Buffer_Model.v
theories/Buffer_Proofs.v
theories/Buffer_Props.v
theories/Buffer_Spec.v
theories/C11_Model.v
theories/C11_Props.v
theories/Condition_Model.v
theories/Condition_Props.v
theories/Condition_Sync.v
theories/ConstBuffer_Model.v
theories/ConstBuffer_Props.v
theories/ConstBuffer_Spec.v
theories/ConstMap_Model.v
theories/ConstMap_Props.v
theories/Crt_Model.v
theories/Crt_Proofs.v
theories/Crt_Props.v
theories/Crt_Spec.v
theories/Ctest_Model.v
theories/Ctest_Props.v
theories/Ctest_Spec.v
theories/DList_Model.v
theories/DList_Proofs.v
theories/DList_Props.v
theories/DList_Spec.v
theories/Gballoc_Model.v
theories/Gballoc_Proofs.v
theories/Gballoc_Props.v
theories/Gballoc_Spec.v
theories/HmacSha256_Props.v
theories/Hmac_Model.v
theories/Hmac_Props.v
theories/HttpApiCurl_Model.v
theories/HttpApiCurl_Props.v
theories/HttpApiCurl_Request.v
theories/HttpApiCurl_Spec.v
theories/HttpApiExSas_Model.v
theories/HttpApiExSas_Props.v
theories/HttpApiEx_Calls.v
theories/HttpApiEx_Model.v
theories/HttpApiEx_Objects.v
theories/HttpApiEx_Proofs.v
theories/HttpApiEx_Props.v
theories/HttpApiEx_Spec.v
theories/HttpApiEx_Total.v
theories/HttpApiMbed_Any.v
theories/HttpApiMbed_Body.v
theories/HttpApiMbed_Cases.v
theories/HttpApiMbed_Cut.v
theories/HttpApiMbed_Handle.v
theories/HttpApiMbed_Model.v
theories/HttpApiMbed_Props.v
theories/HttpApiMbed_Read.v
theories/HttpApiMbed_Reply.v
theories/HttpApiMbed_Safety.v
theories/HttpApiMbed_Scan.v
theories/HttpApiMbed_Sound.v
theories/HttpApiMbed_Spec.v
theories/HttpCe_Cases.v
theories/HttpCe_Model.v
theories/HttpCe_Props.v
theories/HttpHeaders_Model.v
theories/HttpHeaders_Proofs.v
theories/HttpHeaders_Props.v
theories/HttpHeaders_Spec.v
theories/HttpTirtos_Model.v
theories/HttpTirtos_Props.v
theories/HttpTirtos_Spec.v
theories/HttpWin_Model.v
theories/HttpWin_Props.v
theories/HttpWin_Spec.v
theories/IoOptions_Model.v
theories/IoOptions_Props.v
theories/IoOptions_Spec.v
theories/Json_Spec.v
theories/List_Model.v
theories/List_Proofs.v
theories/List_Props.v
theories/List_Spec.v
theories/LockPort_Model.v
theories/LockPort_Props.v
theories/MacroEnum_Model.v
theories/MacroEnum_Props.v
theories/Map_Model.v
theories/Map_Proofs.v
theories/Map_Props.v
theories/Map_Spec.v
theories/Mem.v
theories/MicroMock_Model.v
theories/MicroMock_Props.v
theories/MicroMock_Spec.v
theories/MockArg_Model.v
theories/MockArg_Props.v
theories/MockArg_Spec.v
theories/MockFn_Cases.v
theories/MockFn_Model.v
theories/MockFn_Props.v
theories/MockFn_Spec.v
theories/MockStr_Model.v
theories/MockStr_Props.v
theories/MockText_Props.v
theories/MockVal_Model.v
theories/MockVal_Props.v
theories/MockVal_Spec.v
theories/Ports_Model.v
theories/Ports_Props.v
theories/Refcount_Model.v
theories/Refcount_Props.v
theories/Refine.v
theories/Sas_Model.v
theories/Sas_Proofs.v
theories/Sas_Props.v
theories/Sas_Spec.v
theories/SchannelIo_Life.v
theories/SchannelIo_Model.v
theories/SchannelIo_Own.v
theories/SchannelIo_Safe.v
theories/SchannelIo_Spec.v
theories/SchannelIo_Stream.v
theories/ShaRace_Model.v
theories/ShaRace_Props.v
theories/Sha_Compress.v
theories/Sha_History.v
theories/Sha_Model.v
theories/Sha_Padding.v
theories/Sha_Props.v
theories/Sha_Spec.v
theories/Sha_Stream.v
theories/Sha_Words.v
theories/SocketIoRe_Cases.v
theories/SocketIoRe_Close.v
theories/SocketIoRe_Fates.v
theories/SocketIoRe_Model.v
theories/SocketIoRe_Props.v
theories/SocketIoRe_Spec.v
theories/SocketIo_Fates.v
theories/SocketIo_Model.v
theories/SocketIo_Paths.v
theories/SocketIo_Props.v
theories/SocketIo_Refuted.v
theories/SocketIo_Spec.v
theories/SocketMbed_Model.v
theories/SocketMbed_Own.v
theories/SocketMbed_Props.v
theories/SocketMbed_Spec.v
theories/SocketWin_Model.v
theories/SocketWin_Props.v
theories/SocketWin_Spec.v
theories/Strings_Model.v
theories/Strings_Proofs.v
theories/Strings_Props.v
theories/Strings_Spec.v
theories/TestMutex_Model.v
theories/TestMutex_Props.v
theories/TestMutex_Spec.v
theories/ThreadApi_Model.v
theories/ThreadApi_Props.v
theories/ThreadMbed_Model.v
theories/ThreadMbed_Props.v
theories/TickCounter_Model.v
theories/TickCounter_Props.v
theories/TickPort_Model.v
theories/TickPort_Props.v
theories/TimeMock_Model.v
theories/TimeMock_Props.v
theories/TimeMock_Spec.v
theories/TlsIo_Close.v
theories/TlsIo_Create.v
theories/TlsIo_Exact.v
theories/TlsIo_Flow.v
theories/TlsIo_Logic.v
theories/TlsIo_Model.v
theories/TlsIo_Once.v
theories/TlsIo_Open.v
theories/TlsIo_Refuted.v
theories/TlsIo_Socket.v
theories/TlsIo_Spec.v
theories/Tokenizer_Model.v
theories/Tokenizer_Proofs.v
theories/Tokenizer_Props.v
theories/Tokenizer_Spec.v
theories/UMockC_Model.v
theories/UMockC_Props.v
theories/UMockC_Spec.v
theories/UMockName_Model.v
theories/UMockName_Props.v
theories/UMockName_Spec.v
theories/UMockTypes_Model.v
theories/UMockTypes_Props.v
theories/UMockTypes_Spec.v
theories/UMockUse_Props.v
theories/UMockUse_Spec.v
theories/UMock_Model.v
theories/UMock_Props.v
theories/UMock_Spec.v
theories/UniqueId_Model.v
theories/UniqueId_Props.v
theories/UniqueId_Spec.v
theories/UrlEncode_Model.v
theories/UrlEncode_Proofs.v
theories/UrlEncode_Props.v
theories/UrlEncode_Spec.v
theories/Vector_Model.v
theories/Vector_Proofs.v
theories/Vector_Props.v
theories/Vector_Spec.v
theories/WolfIo_Cases.v
theories/WolfIo_Create.v
theories/WolfIo_Fail.v
theories/WolfIo_Flow.v
theories/WolfIo_Frame.v
theories/WolfIo_Logic.v
theories/WolfIo_Model.v
theories/WolfIo_Open.v
theories/WolfIo_Spec.v
theories/Xio_Model.v
theories/Xio_Props.v
theories/Xio_Spec.v
