-Q theories Verif
theories/Base.v
theories/BaseLemmas.v
theories/M_Tlv.v
theories/P_Tlv.v
theories/S_Tlv.v
theories/M_Encoder.v
theories/P_Encoder.v
theories/M_Block.v
theories/S_Block.v
theories/P_Block.v
theories/P_EncoderT.v
theories/T_Tlv.v
theories/M_Str.v
theories/M_Name.v
theories/P_Str.v
theories/S_Name.v
theories/P_Name.v
theories/P_NameUri.v
theories/P_NameOrder.v
theories/T_Name.v
theories/M_Packet.v
theories/S_Packet.v
theories/P_Packet.v
theories/P_Data.v
theories/P_DataT.v
theories/P_DataHist.v
theories/T_Packet.v
theories/M_Interest.v
theories/S_Interest.v
theories/P_Interest.v
theories/P_InterestD.v
theories/P_InterestT.v
theories/P_InterestH.v
theories/P_InterestS.v
theories/P_InterestF.v
theories/T_Interest.v
theories/M_Scheduler.v
theories/S_Scheduler.v
theories/P_Scheduler.v
theories/T_Scheduler.v
theories/M_Lp.v
theories/S_Lp.v
theories/P_Lp.v
theories/P_LpT.v
theories/T_Lp.v
theories/M_Ims.v
theories/S_Ims.v
theories/P_Ims.v
theories/P_ImsI.v
theories/P_ImsT.v
theories/T_Ims.v
theories/M_Face.v
theories/S_Face.v
theories/P_Face.v
theories/P_FaceI.v
theories/T_Face.v
theories/M_Transport.v
theories/S_Transport.v
theories/P_Transport.v
theories/P_TransportR.v
theories/P_TransportT.v
theories/P_TransportS.v
theories/T_Transport.v
theories/M_Segmenter.v
theories/S_Segmenter.v
theories/P_Segmenter.v
theories/T_Segmenter.v
theories/M_Rtt.v
theories/S_Rtt.v
theories/S_RttF.v
theories/P_Rtt.v
theories/P_RttF.v
theories/T_Rtt.v
theories/M_Fetcher.v
theories/S_Fetcher.v
theories/P_Fetcher.v
theories/P_FetcherB.v
theories/P_FetcherC.v
theories/T_Fetcher.v
theories/M_StatusDataset.v
theories/S_StatusDataset.v
theories/P_StatusDataset.v
theories/T_StatusDataset.v
theories/M_Control.v
theories/S_Control.v
theories/P_Control.v
theories/T_Control.v
theories/M_Transform.v
theories/S_Transform.v
theories/P_Transform.v
theories/T_Transform.v
theories/M_Signer.v
theories/S_Signer.v
theories/P_Signer.v
theories/T_Signer.v
theories/M_Validity.v
theories/S_Validity.v
theories/P_ValidityC.v
theories/P_ValidityD.v
theories/P_Validity.v
theories/T_Validity.v
theories/M_Signal.v
theories/S_Signal.v
theories/P_Signal.v
theories/T_Signal.v
theories/M_CertCache.v
theories/S_CertCache.v
theories/P_CertCache.v
theories/T_CertCache.v
theories/M_IntPolicy.v
theories/S_IntPolicy.v
theories/P_IntPolicy.v
theories/P_CmdPolicy.v
theories/T_CmdPolicy.v
theories/P_SgnPolicy.v
theories/P_SgnTrace.v
theories/T_SgnPolicy.v
theories/M_Anchors.v
theories/S_Anchors.v
theories/P_Anchors.v
theories/T_Anchors.v
theories/M_Validator.v
theories/S_Validator.v
theories/P_Validator.v
theories/P_Validator2.v
theories/T_Validator.v
theories/M_Regex.v
theories/S_Regex.v
theories/P_Regex.v
theories/P_Regex2.v
theories/P_Regex3.v
theories/P_Regex4.v
theories/P_Regex5.v
theories/T_Regex.v
theories/S_FetcherNet.v
theories/P_FetcherD.v
theories/M_Pib.v
theories/S_Pib.v
theories/P_Pib.v
theories/P_PibR.v
theories/P_PibK.v
theories/P_PibS.v
theories/T_Pib.v
theories/M_KeyChain.v
theories/S_KeyChain.v
theories/P_KeyChain.v
theories/P_KeyChainI.v
theories/T_KeyChain.v
theories/M_Dispatcher.v
theories/S_Dispatcher.v
theories/P_Dispatcher.v
theories/P_Dispatcher2.v
theories/P_Dispatcher3.v
theories/P_Dispatcher4.v
theories/P_Dispatcher5.v
theories/P_Dispatcher6.v
theories/T_Dispatcher.v
theories/M_VConfig.v
theories/S_VConfig.v
theories/P_VConfig.v
theories/P_VConfig2.v
theories/P_VConfig3.v
theories/T_VConfig.v
theories/M_NfdData.v
theories/S_NfdData.v
theories/P_NfdData.v
theories/P_NfdData2.v
theories/P_NfdData3.v
theories/P_NfdData4.v
theories/T_NfdData.v
theories/M_NotifSub.v
theories/S_NotifSub.v
theories/P_NotifSub.v
theories/P_NotifSub2.v
theories/T_NotifSub.v
theories/M_Special.v
theories/S_Special.v
theories/P_Special.v
theories/P_Special2.v
theories/P_Special3.v
theories/T_Special.v
theories/M_Controller.v
theories/S_Controller.v
theories/P_Controller.v
theories/P_Controller2.v
theories/T_Controller.v
theories/M_SecMisc.v
theories/S_SecMisc.v
theories/P_SecMisc.v
theories/T_SecMisc.v
theories/M_Bundle.v
theories/S_Bundle.v
theories/P_Bundle.v
theories/T_Bundle.v
theories/M_Logging.v
theories/S_Logging.v
theories/P_Logging.v
theories/T_Logging.v
theories/M_FaceUri.v
theories/S_FaceUri.v
theories/P_FaceUri.v
theories/T_FaceUri.v
theories/M_Canonize.v
theories/S_Canonize.v
theories/P_Canonize.v
theories/T_Canonize.v
theories/M_Dns.v
theories/S_Dns.v
theories/P_Dns.v
theories/T_Dns.v
theories/M_NetIf.v
theories/S_NetIf.v
theories/P_NetIf.v
theories/T_NetIf.v
theories/M_Indent.v
theories/S_Indent.v
theories/P_Indent.v
theories/T_Indent.v
theories/M_LpTags.v
theories/S_LpTags.v
theories/P_LpTags.v
theories/T_LpTags.v
theories/M_Scoped.v
theories/S_Scoped.v
theories/P_Scoped.v
theories/T_Scoped.v
