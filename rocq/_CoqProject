-Q theories Verif

theories/Rust.v
theories/Float.v
theories/Math.v
theories/Chan.v
theories/Frame.v
theories/Ops.v
theories/Stream.v
theories/Audio.v
theories/Unwind.v
theories/Heap.v
theories/Ring.v
theories/SpecRing.v
theories/SpecChan.v
theories/IntProofs.v
theories/FloatProofs.v
theories/FloorProofs.v
theories/ConvProofs.v
theories/FArithProofs.v
theories/ChanProofs.v
theories/FChanProofs.v
theories/PropChan.v
theories/SpecFrame.v
theories/FrameProofs.v
theories/OpsProofs.v
theories/PropFrame.v
theories/SpecStream.v
theories/StreamProofs.v
theories/SpecSink.v
theories/SinkProofs.v
theories/PlaceProofs.v
theories/CopyProofs.v
theories/EqualProofs.v
theories/WeightProofs.v
theories/SinkMore.v
theories/SinkTerm.v
theories/SpecAudio.v
theories/AudioProofs.v
theories/DrainProofs.v
theories/SpecUnwind.v
theories/UnwindProofs.v
theories/RawProofs.v
theories/ResampleProofs.v
theories/PanicProofs.v
theories/SpecMore.v
theories/WholeProofs.v
theories/MoreProofs.v
theories/DriftProofs.v
theories/RoundTripProofs.v
theories/MixedProofs.v
theories/DirectProofs.v
theories/StreamMore.v
theories/GainProofs.v
theories/LevelProofs.v
theories/SpecLaw.v
theories/ChunkProofs.v
theories/RatioProofs.v
theories/ApartProofs.v
theories/LawProofs.v
theories/PropStream.v
theories/PropSink.v
theories/PropAudio.v
theories/PropMore.v
theories/PropLaw.v
theories/PropUnwind.v
theories/Generic.v
theories/SpecGeneric.v
theories/GenericProofs.v
theories/PropGeneric.v
theories/EmptyProofs.v
theories/PropEmpty.v
theories/SpecRel.v
theories/RelProofs.v
theories/SpecRange.v
theories/RangeProofs.v
theories/MirrorProofs.v
theories/PropRel.v
theories/SpecTrip.v
theories/TripProofs.v
theories/PropTrip.v
theories/SpecMany.v
theories/ManyProofs.v
theories/Programs.v
theories/ProgramProofs.v
theories/PropMany.v
theories/SpecPan.v
theories/PiProofs.v
theories/PanProofs.v
theories/PropPan.v
theories/UserPan.v
theories/SpecUserPan.v
theories/UserPanProofs.v
theories/SpecMix.v
theories/MixProofs.v
theories/PropMix.v
theories/SpecFade.v
theories/FadeProofs.v
theories/PropFade.v
theories/SuperProofs.v
theories/PropSuper.v
theories/UnitTests.v
theories/HeapUser.v
theories/SpecHeapUser.v
theories/HeapUserProofs.v
theories/PropHeapUser.v
theories/SpecRaise.v
theories/RaiseProofs.v
theories/SpecLower.v
theories/LowerProofs.v
theories/PropRaise.v
theories/RingProofs.v
theories/PropLower.v
theories/PropRing.v
theories/MinChoice.v
theories/SpecMinChoice.v
theories/MinChoiceProofs.v
theories/PropMinChoice.v
theories/UserFrame.v
theories/SpecUserFrame.v
theories/UserFrameProofs.v
theories/PropUserFrame.v
theories/Word.v
theories/SpecWord.v
theories/WordProofs.v
theories/PropWord.v
theories/SpecArith.v
theories/ArithProofs.v
theories/ArithMixProofs.v
theories/PropArith.v
theories/DelayProofs.v
theories/PropDelay.v
theories/SpecUsage.v
theories/UsageProofs.v
theories/PropUsage.v
theories/SpecCarry.v
theories/CarryProofs.v
theories/PropCarry.v
theories/SpecOrder.v
theories/OrderProofs.v
theories/PropOrder.v
theories/SpecSum.v
theories/SumProofs.v
theories/PropSum.v
theories/SpecNearby.v
theories/NearbyProofs.v
theories/PropNearby.v
theories/SpecSpread.v
theories/SpreadProofs.v
theories/PropSpread.v
theories/SpecSmooth.v
theories/SmoothProofs.v
theories/PropSmooth.v
theories/SpecPitch.v
theories/PitchProofs.v
theories/PropPitch.v
theories/SpecLerp.v
theories/LerpProofs.v
theories/PropLerp.v
theories/PauseProofs.v
theories/PropPause.v
