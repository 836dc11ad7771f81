-Q theories Verif
theories/GoPrims.v
theories/Value.v
theories/PackSpec.v
theories/PrimLemmas.v
theories/Encoder.v
theories/Decoder.v
theories/EncoderProofs.v
theories/PackProofs.v
theories/DecoderProofs.v
theories/RoundTrip.v
theories/Truncate.v
theories/Framing.v
theories/CodecProofs.v
theories/CodecIO.v
theories/CodecRefute.v
theories/CodecOrder.v
theories/PropsCodec.v
theories/Errors.v
theories/Misc.v
theories/Recorder.v
theories/PropsMisc.v
theories/Session.v
theories/SessionGen.v
theories/SessionErr.v
theories/SessionTerm.v
theories/SessionVoc.v
theories/SessionFuel.v
theories/ServerSpec.v
theories/SessionSpec.v
theories/SessionBolt.v
theories/SessionRefine.v
theories/SessionUse.v
theories/SessionLimits.v
theories/SessionSim.v
theories/SessionTrace.v
theories/PropsNames.v
theories/PropsBolt.v
theories/Pool.v
theories/PoolInv.v
theories/PoolMore.v
theories/PropsSession.v
theories/PoolLink.v
theories/PoolLive.v
theories/PropsPool.v
theories/SessionPanic.v
theories/PropsPanic.v
theories/SessionSends.v
theories/SessionNet.v
theories/WireSpec.v
theories/WireBytes.v
theories/SessionWire.v
theories/PropsWire.v
theories/ReadFaults.v
theories/PropsFault.v
theories/PropsReplay.v
theories/Recordings.v
theories/Conform.v
theories/ConformServer.v
theories/SessionRaw.v
theories/PropsSql.v
theories/SessionRecover.v
theories/PropsRecover.v
theories/PropsShare.v
theories/Timed.v
theories/PropsTime.v
theories/SessionBlind.v
theories/PropsDecode.v
theories/PropsSystem.v
theories/PropsLeak.v
theories/PropsLate.v
theories/Alloc.v
theories/PropsAlloc.v
theories/Logging.v
theories/PropsLog.v
theories/PropsReopen.v
theories/PropsPlaces.v
theories/SqlUse.v
theories/PropsDbSql.v
theories/SessionStay.v
theories/PropsStay.v
theories/PoolSystem.v
theories/PoolSysInv.v
theories/PropsPoolSys.v
theories/SessionAlias.v
theories/PropsAlias.v
theories/ExactTrip.v
theories/PropsExact.v
theories/SessionShut.v
theories/SessionTouch.v
theories/PropsShut.v
theories/PoolRace.v
theories/PropsRace.v
theories/Handles.v
theories/PropsHandles.v
theories/PropsSystemWire.v
theories/PropsOpen.v
theories/PropsTerm.v
theories/SessionTalk.v
theories/PropsTalk.v
theories/Programs.v
theories/PropsPrograms.v
theories/ConnString.v
theories/PropsConnString.v
theories/PoolMake.v
theories/PropsPoolMake.v
theories/OpenError.v
theories/PropsOpenError.v
theories/OpenTape.v
theories/PropsCredentials.v
theories/Probe.v
theories/PropsProbe.v
