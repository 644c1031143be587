-Q theories Verif
theories/Model/Backoff.v
theories/Model/Base.v
theories/Model/Compression.v
theories/Model/Framed.v
theories/Model/FramedWrite.v
theories/Model/Handshake.v
theories/Model/JoinMap.v
theories/Model/Map.v
theories/Model/Net.v
theories/Model/Options.v
theories/Model/PubDriver.v
theories/Model/PubSubNet.v
theories/Model/QuicAccept.v
theories/Model/QuicConfig.v
theories/Model/QuicDriver.v
theories/Model/QuicStream.v
theories/Model/RepDriver.v
theories/Model/ReqDriver.v
theories/Model/ReqRepNet.v
theories/Model/Sim.v
theories/Model/SimCmd.v
theories/Model/Sockets.v
theories/Model/Stats.v
theories/Model/SubDriver.v
theories/Model/SubPass.v
theories/Model/Transport.v
theories/Model/Trie.v
theories/Model/Utf8.v
theories/Model/WireAuth.v
theories/Model/WirePubSub.v
theories/Model/WireReqRep.v
theories/Model/Writers.v
theories/Spec/AuthCuts.v
theories/Spec/AuthSpec.v
theories/Spec/BackoffSpec.v
theories/Spec/CompressSpec.v
theories/Spec/HandSpec.v
theories/Spec/IsoRepSpec.v
theories/Spec/IsoSpec.v
theories/Spec/LifeSpec.v
theories/Spec/ListenSpec.v
theories/Spec/NetSpec.v
theories/Spec/NetSpec2.v
theories/Spec/NetSpec3.v
theories/Spec/NetSpec4.v
theories/Spec/NetSpec5.v
theories/Spec/NetSpec6.v
theories/Spec/NetSpec7.v
theories/Spec/NetSpec8.v
theories/Spec/NetSpec9.v
theories/Spec/OptSpec.v
theories/Spec/PassSpec.v
theories/Spec/PubSpec.v
theories/Spec/QuicSpec.v
theories/Spec/RedialSpec.v
theories/Spec/RepSpec.v
theories/Spec/ReqSpec.v
theories/Spec/SilentSpec.v
theories/Spec/SimSpec.v
theories/Spec/StatsSpec.v
theories/Spec/Stream.v
theories/Spec/SubSpec.v
theories/Spec/Topics.v
theories/Spec/Utf8Spec.v
theories/Spec/WaitSpec.v
theories/Spec/Wire.v
theories/Spec/WriteSpec.v
theories/Proofs/AuthP.v
theories/Proofs/BaseP.v
theories/Proofs/FramedP.v
theories/Proofs/FramedP2.v
theories/Proofs/FramedWriteP.v
theories/Proofs/HandshakeP.v
theories/Proofs/HandshakeP2.v
theories/Proofs/MapP.v
theories/Proofs/NetP.v
theories/Proofs/PubDriverP.v
theories/Proofs/PubDriverP2.v
theories/Proofs/PubDriverP3.v
theories/Proofs/PubDriverP4.v
theories/Proofs/PubDriverP5.v
theories/Proofs/PubDriverP6.v
theories/Proofs/PubDriverP7.v
theories/Proofs/PubNetP.v
theories/Proofs/PubSubNetP.v
theories/Proofs/PubSubNetP10.v
theories/Proofs/PubSubNetP11.v
theories/Proofs/PubSubNetP12.v
theories/Proofs/PubSubNetP13.v
theories/Proofs/PubSubNetP14.v
theories/Proofs/PubSubNetP15.v
theories/Proofs/PubSubNetP16.v
theories/Proofs/PubSubNetP17.v
theories/Proofs/PubSubNetP18.v
theories/Proofs/PubSubNetP19.v
theories/Proofs/PubSubNetP2.v
theories/Proofs/PubSubNetP20.v
theories/Proofs/PubSubNetP21.v
theories/Proofs/PubSubNetP3.v
theories/Proofs/PubSubNetP4.v
theories/Proofs/PubSubNetP5.v
theories/Proofs/PubSubNetP6.v
theories/Proofs/PubSubNetP7.v
theories/Proofs/PubSubNetP8.v
theories/Proofs/PubSubNetP9.v
theories/Proofs/PubSubP.v
theories/Proofs/RepDriverP.v
theories/Proofs/RepDriverP2.v
theories/Proofs/RepDriverP3.v
theories/Proofs/RepDriverP4.v
theories/Proofs/RepDriverP5.v
theories/Proofs/RepDriverP6.v
theories/Proofs/RepNetP.v
theories/Proofs/ReqDriverP.v
theories/Proofs/ReqRepNetP.v
theories/Proofs/ReqRepNetP10.v
theories/Proofs/ReqRepNetP11.v
theories/Proofs/ReqRepNetP12.v
theories/Proofs/ReqRepNetP13.v
theories/Proofs/ReqRepNetP14.v
theories/Proofs/ReqRepNetP15.v
theories/Proofs/ReqRepNetP16.v
theories/Proofs/ReqRepNetP17.v
theories/Proofs/ReqRepNetP18.v
theories/Proofs/ReqRepNetP2.v
theories/Proofs/ReqRepNetP3.v
theories/Proofs/ReqRepNetP4.v
theories/Proofs/ReqRepNetP5.v
theories/Proofs/ReqRepNetP6.v
theories/Proofs/ReqRepNetP7.v
theories/Proofs/ReqRepNetP8.v
theories/Proofs/ReqRepNetP9.v
theories/Proofs/ReqRepP.v
theories/Proofs/SubDriverP.v
theories/Proofs/SubDriverP10.v
theories/Proofs/SubDriverP2.v
theories/Proofs/SubDriverP3.v
theories/Proofs/SubDriverP4.v
theories/Proofs/SubDriverP5.v
theories/Proofs/SubDriverP6.v
theories/Proofs/SubDriverP7.v
theories/Proofs/SubDriverP8.v
theories/Proofs/SubDriverP9.v
theories/Proofs/SubNetP.v
theories/Proofs/T_Auth.v
theories/Proofs/T_Calls.v
theories/Proofs/T_Compress.v
theories/Proofs/T_Hand.v
theories/Proofs/T_Iso.v
theories/Proofs/T_Iso2.v
theories/Proofs/T_Listen.v
theories/Proofs/T_Mem.v
theories/Proofs/T_Misc.v
theories/Proofs/T_Net.v
theories/Proofs/T_Net10.v
theories/Proofs/T_Net2.v
theories/Proofs/T_Net3.v
theories/Proofs/T_Net4.v
theories/Proofs/T_Net5.v
theories/Proofs/T_Net6.v
theories/Proofs/T_Net7.v
theories/Proofs/T_Net8.v
theories/Proofs/T_Net9.v
theories/Proofs/T_Opts.v
theories/Proofs/T_Pass.v
theories/Proofs/T_Pub.v
theories/Proofs/T_Quic.v
theories/Proofs/T_Redial.v
theories/Proofs/T_Rep.v
theories/Proofs/T_Rep2.v
theories/Proofs/T_Req.v
theories/Proofs/T_Req2.v
theories/Proofs/T_Silent.v
theories/Proofs/T_Stats.v
theories/Proofs/T_Sub.v
theories/Proofs/T_Trie.v
theories/Proofs/T_Wait.v
theories/Proofs/T_Wire.v
theories/Proofs/T_Wire2.v
theories/Proofs/T_Write.v
theories/Proofs/TrieP.v
theories/Proofs/Utf8P.v
theories/Proofs/WritersP.v
theories/Proofs/WritersP2.v
theories/Proofs/WritersP3.v
theories/Props/P_Auth.v
theories/Props/P_Calls.v
theories/Props/P_Compress.v
theories/Props/P_Hand.v
theories/Props/P_Iso.v
theories/Props/P_Iso2.v
theories/Props/P_Listen.v
theories/Props/P_Mem.v
theories/Props/P_Misc.v
theories/Props/P_Net.v
theories/Props/P_Net10.v
theories/Props/P_Net2.v
theories/Props/P_Net3.v
theories/Props/P_Net4.v
theories/Props/P_Net5.v
theories/Props/P_Net6.v
theories/Props/P_Net7.v
theories/Props/P_Net8.v
theories/Props/P_Net9.v
theories/Props/P_Opts.v
theories/Props/P_Pass.v
theories/Props/P_Pub.v
theories/Props/P_Quic.v
theories/Props/P_Redial.v
theories/Props/P_Rep.v
theories/Props/P_Rep2.v
theories/Props/P_Req.v
theories/Props/P_Req2.v
theories/Props/P_Silent.v
theories/Props/P_Stats.v
theories/Props/P_Sub.v
theories/Props/P_Trie.v
theories/Props/P_Wait.v
theories/Props/P_Wire.v
theories/Props/P_Wire2.v
theories/Props/P_Write.v
