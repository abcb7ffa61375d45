-Q theories Verif
theories/Base.v
theories/F32.v
theories/Messages.v
theories/Command.v
theories/Track.v
theories/SeqTree.v
theories/Song.v
theories/Paths.v
theories/SpecPath.v
theories/PathProofs.v
theories/Manifest.v
theories/Rom.v
theories/Midi.v
theories/Json.v
theories/Cli.v
theories/Conformance.v
theories/ProofLib.v
theories/SpecNspc.v
theories/CodecProofs.v
theories/FrameProofs.v
theories/PropCodec.v
theories/F32Proofs.v
theories/SpecTime.v
theories/SpecF32.v
theories/SplitProofs.v
theories/DurationProofs.v
theories/TempoProofs.v
theories/PropTime.v
theories/SpecVoice.v
theories/SpecHeads.v
theories/SpecPlaced.v
theories/TrackProofs.v
theories/SlideProofs.v
theories/DecodeProofs.v
theories/PlacedProofs.v
theories/PropPlaced.v
theories/PropTrack.v
theories/SpecMidi.v
theories/MergeProofs.v
theories/SpecNotes.v
theories/SpecVoices.v
theories/BaseVoiceProofs.v
theories/LoopProofs.v
theories/VoiceProofs.v
theories/DistributeProofs.v
theories/ReadProofs.v
theories/ReadProofs2.v
theories/InstrProofs.v
theories/TotalProofs.v
theories/MidiExamples.v
theories/PropMidi.v
theories/SpecRom.v
theories/SpecBank.v
theories/RomLib.v
theories/RomProofs.v
theories/RomBank.v
theories/RomChain.v
theories/RomBanks.v
theories/RomTotal.v
theories/RomMore.v
theories/RomExamples.v
theories/RomFinal.v
theories/PropRom.v
theories/SpecSong.v
theories/SongProofs.v
theories/SongMore.v
theories/SpecJson.v
theories/JsonProofs.v
theories/PropSong.v
theories/FactorProofs.v
theories/SpecSigned.v
theories/SignedFactor.v
theories/PropFactor.v
theories/SpecBuild.v
theories/BuildProofs.v
theories/PropBuild.v
theories/SpecLoop.v
theories/TreeProofs.v
theories/TreeProofs2.v
theories/OptProofs.v
theories/OptExpand.v
theories/LoopExamples.v
theories/PropLoop.v
theories/SpecAram.v
theories/AramProofs.v
theories/AramMore.v
theories/PropAram.v
theories/SpecControl.v
theories/ControlProofs.v
theories/HeadProofs.v
theories/PropControl.v
theories/SpecPlayback.v
theories/PlaybackProofs.v
theories/SpecFile.v
theories/FileProofs.v
theories/FilePlay.v
theories/FileExamples.v
theories/PropPlayback.v
theories/SpecSaving.v
theories/SavingProofs.v
theories/TreeIter.v
theories/IterProofs.v
theories/SavingExamples.v
theories/PropSaving.v
theories/SpecConsole.v
theories/ConsoleProofs.v
theories/RomTwice.v
theories/PropConsole.v
theories/Run.v
theories/SongBytes.v
theories/SpecRun.v
theories/RunProofs.v
theories/PropRun.v
theories/SpecGate.v
theories/GateProofs.v
theories/HeardProofs.v
theories/FileHeard.v
theories/PropGate.v
theories/SpecHeard.v
theories/SettingProofs.v
theories/FileSettings.v
theories/SettingExamples.v
theories/EndProofs.v
theories/PropHeard.v
theories/SpecVolume.v
theories/VolumeProofs.v
theories/VolumeExamples.v
theories/PropVolume.v
theories/SpecSame.v
theories/SameProofs.v
theories/SameExamples.v
theories/PropSame.v
theories/SpecScore.v
theories/ScoreProofs.v
theories/ScoreExamples.v
theories/PropScore.v
theories/SpecShift.v
theories/ShiftProofs.v
theories/ShiftTrack.v
theories/OptShift.v
theories/ShiftFile.v
theories/ShiftExamples.v
theories/PropShift.v
theories/Schema.v
theories/SpecSchema.v
theories/SchemaProofs.v
theories/PropSchema.v
theories/SpecCommand.v
theories/CommandPaths.v
theories/CommandProofs.v
theories/CommandExamples.v
theories/PropCommand.v
theories/SpecPorta.v
theories/PortaProofs.v
theories/SlidePlace.v
theories/PropPorta.v
theories/SpecSuccess.v
theories/RomSuccess.v
theories/SuccessExamples.v
theories/PropSuccess.v
theories/SpecRendered.v
theories/RenderProofs.v
theories/RenderExamples.v
theories/PropRendered.v
theories/DummyProofs.v
theories/DummyExamples.v
theories/PropDummy.v
theories/SpecExact.v
theories/ExactProofs.v
theories/ClockProofs.v
theories/FoldExact.v
theories/NoCrash.v
theories/CheckedProofs.v
theories/ExactExamples.v
theories/PropExact.v
theories/SpecSafe.v
theories/RomSafe.v
theories/SafeProofs.v
theories/SafeExamples.v
theories/PropSafe.v
theories/SpecEach.v
theories/RomEach.v
theories/EachExamples.v
theories/PropEach.v
theories/SpecFinished.v
theories/FinishedProofs.v
theories/FinishedExamples.v
theories/PropFinished.v
theories/SpecTable.v
theories/TableProofs.v
theories/PropTable.v
theories/SpecFit.v
theories/FitProofs.v
theories/SpecGame.v
theories/GameProofs.v
theories/GameBuild.v
theories/GameExamples.v
theories/PropFit.v
theories/PropGame.v
theories/SpecGrid.v
theories/GridProofs.v
theories/PropGrid.v
theories/Report.v
theories/SpecReport.v
theories/ReportProofs.v
theories/ReportTrue.v
theories/ReportMore.v
theories/PropReport.v
theories/SpecSize.v
theories/SizeProofs.v
theories/PropSize.v
theories/SpecSlide.v
theories/SlideFile.v
theories/PropSlide.v
theories/MidiLog.v
theories/MidiDump.v
theories/SpecMidiLog.v
theories/SpecDump.v
theories/MidiLogProofs.v
theories/MidiPossible.v
theories/DumpProofs.v
theories/DumpStuck.v
theories/PropMidiLog.v
theories/PropDump.v
