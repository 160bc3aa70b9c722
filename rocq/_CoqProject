-Q theories Verif
theories/Alias.v
theories/Bytes.v
theories/Cmd.v
theories/CodecFacts.v
theories/Conc.v
theories/Ed25519.v
theories/EdEven.v
theories/EdPoint.v
theories/Eddsa.v
theories/Edwards.v
theories/ErrText.v
theories/Example.v
theories/Fp.v
theories/Frosted.v
theories/Go.v
theories/Group.v
theories/Harness.v
theories/Heap.v
theories/HeapFacts.v
theories/HeapFrame.v
theories/HeapSim.v
theories/HeapWorld.v
theories/Helpers.v
theories/Inplace.v
theories/Json.v
theories/JsonFacts.v
theories/Keygen.v
theories/KeygenFacts.v
theories/KeygenRun.v
theories/Lift.v
theories/Lin.v
theories/Lockstep.v
theories/Loops.v
theories/LoopsFacts.v
theories/Messages.v
theories/Net.v
theories/NetLive.v
theories/NetProgress.v
theories/Party.v
theories/Poly.v
theories/PolyAlg.v
theories/PolyFacts.v
theories/Primes.v
theories/Progress.v
theories/Properties_Agree.v
theories/Properties_Algebra.v
theories/Properties_Alias.v
theories/Properties_Base64.v
theories/Properties_Bounds.v
theories/Properties_Cmd.v
theories/Properties_Codec.v
theories/Properties_Conc.v
theories/Properties_Concrete.v
theories/Properties_Crash.v
theories/Properties_Delivery.v
theories/Properties_Ed25519.v
theories/Properties_Error.v
theories/Properties_Example.v
theories/Properties_Extract.v
theories/Properties_Frosted.v
theories/Properties_Harness.v
theories/Properties_Heap.v
theories/Properties_Helpers.v
theories/Properties_HonestKeygen.v
theories/Properties_HonestSign.v
theories/Properties_Inplace.v
theories/Properties_Json.v
theories/Properties_Kept.v
theories/Properties_Keygen.v
theories/Properties_Life.v
theories/Properties_Lin.v
theories/Properties_Live.v
theories/Properties_Loops.v
theories/Properties_NoTimer.v
theories/Properties_Nonce.v
theories/Properties_Oblivious.v
theories/Properties_Order.v
theories/Properties_Owners.v
theories/Properties_Places.v
theories/Properties_Public.v
theories/Properties_RandFail.v
theories/Properties_Random.v
theories/Properties_Recover.v
theories/Properties_Ristretto.v
theories/Properties_RistrettoTests.v
theories/Properties_Rogue.v
theories/Properties_Secrecy.v
theories/Properties_Session.v
theories/Properties_Sha512.v
theories/Properties_Sign.v
theories/Properties_Slices.v
theories/Properties_State.v
theories/Properties_StateRuns.v
theories/Properties_Tests.v
theories/Properties_Text.v
theories/Properties_Threshold.v
theories/Properties_Transport.v
theories/Properties_Unique.v
theories/Properties_Vectors.v
theories/Properties_ZeroNonce.v
theories/RandFail.v
theories/Recover.v
theories/Ristretto.v
theories/RistrettoDecode.v
theories/RistrettoFacts.v
theories/RistrettoGroup.v
theories/RistrettoMap.v
theories/RistrettoTests.v
theories/RoundFacts.v
theories/Scalar.v
theories/Sha512.v
theories/Sign.v
theories/SignFacts.v
theories/SignRun.v
theories/Slices.v
theories/Spec_Ed25519.v
theories/Spec_Group.v
theories/Spec_Json.v
theories/Spec_Keygen.v
theories/Spec_Live.v
theories/Spec_Poly.v
theories/Spec_Public.v
theories/Spec_Ristretto.v
theories/Spec_Sign.v
theories/Spec_SignRun.v
theories/Spec_State.v
theories/Spec_Text.v
theories/Spec_Wire.v
theories/State.v
theories/StateFacts.v
theories/Tests.v
theories/Text.v
theories/ToyGroup.v
theories/ToyRuns.v
theories/Transport.v
theories/TransportFacts.v
theories/ZField.v
theories/Zk.v
