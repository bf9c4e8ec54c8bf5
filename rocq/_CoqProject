-Q theories Verif
theories/Base.v
theories/Crc32.v
theories/Io.v
theories/Block.v
theories/Payload.v
theories/Packet.v
theories/Macros.v
theories/Rules.v
theories/StreamReader.v
theories/File.v
theories/Slot.v
theories/Storage.v
theories/Locker.v
theories/Sensor.v
theories/Slices.v
theories/BufReader.v
theories/Spec.v
theories/SpecCrc.v
theories/SpecStorage.v
theories/SpecLocker.v
theories/SpecSensor.v
theories/SpecMacros.v
theories/SpecJudge.v
theories/BaseProofs.v
theories/CrcProofs.v
theories/CrcPolyProofs.v
theories/IoProofs.v
theories/BlockProofs.v
theories/DispatchProofs.v
theories/PayloadProofs.v
theories/PayloadEnumProofs.v
theories/Utf8Proofs.v
theories/PacketProofs.v
theories/PacketSafeProofs.v
theories/RulesProofs.v
theories/WireProofs.v
theories/SinkProofs.v
theories/LayoutProofs.v
theories/NameProofs.v
theories/StreamProofs.v
theories/StreamItemProofs.v
theories/SessionProofs.v
theories/StreamFaultProofs.v
theories/StreamCutProofs.v
theories/StreamSoundProofs.v
theories/StreamSafeProofs.v
theories/SlotProofs.v
theories/StorageProofs.v
theories/StorageReadProofs.v
theories/ReloadProofs.v
theories/ReadingProofs.v
theories/SpareProofs.v
theories/CrossProofs.v
theories/HostileProofs.v
theories/ForeignProofs.v
theories/ChangedProofs.v
theories/CrashProofs.v
theories/FaultProofs.v
theories/RecoverProofs.v
theories/SensorProofs.v
theories/SpecPoll.v
theories/PollProofs.v
theories/PropsPoll.v
theories/Release.v
theories/SpecRelease.v
theories/ReleaseProofs.v
theories/ReleaseReloadProofs.v
theories/PropsRelease.v
theories/ReleaseStream.v
theories/SpecReleaseStream.v
theories/ReleaseStreamProofs.v
theories/ReleaseDropProofs.v
theories/PropsReleaseStream.v
theories/ReleaseRead.v
theories/ReleaseIter.v
theories/ReleaseReadProofs.v
theories/ReleaseIterProofs.v
theories/Shared.v
theories/SpecShared.v
theories/LockerProofs.v
theories/SharedProofs.v
theories/PropsShared.v
theories/Samples.v
theories/PropsCrc.v
theories/PropsWire.v
theories/NegProofs.v
theories/BufferedProofs.v
theories/CanonProofs.v
theories/StuckProofs.v
theories/JudgeProofs.v
theories/LongProofs.v
theories/MacroProofs.v
theories/PropsWireNeg.v
theories/PropsMacros.v
theories/PropsStream.v
theories/PropsJudge.v
theories/PropsLong.v
theories/PropsIo.v
theories/PropsSlot.v
theories/PropsStorage.v
theories/PropsCrash.v
theories/PropsFault.v
theories/PropsRecover.v
theories/PropsHostile.v
theories/PropsChanged.v
theories/PropsSync.v
theories/PropsReleaseRead.v
theories/PropsReleaseIter.v
theories/ReleaseWrite.v
theories/ReleaseWriteProofs.v
theories/PropsReleaseWrite.v
