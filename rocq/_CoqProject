-Q theories Verif
theories/Base.v
theories/BigInt.v
theories/HashFrame.v
theories/Text.v
theories/Wire.v
theories/Messages.v
theories/PartyID.v
theories/Curve.v
theories/Schnorr.v
theories/JsonStr.v
theories/Json.v
theories/Save.v
theories/Keygen.v
theories/Xor.v
theories/KeygenNet.v
theories/KeygenHonest.v
theories/KeygenWorld.v
theories/ToyCurve.v
theories/PropKeygen.v
theories/KeygenAdv.v
theories/KeygenHist.v
theories/PropKeygenAdv.v
theories/PropKeygenCalls.v
theories/NumTh.v
theories/Euler.v
theories/Carmichael.v
theories/Paillier.v
theories/PropPaillier.v
theories/RangeProofs.v
theories/RangeThm.v
theories/PropRange.v
theories/Ckd.v
theories/PropCkd.v
theories/Subset.v
theories/Onsign.v
theories/PropSubset.v
theories/OnsignEnc.v
theories/OnsignHist.v
theories/PropSign.v
theories/SignEx.v
theories/PropSignEx.v
theories/PropPartial.v
theories/SignHonest.v
theories/SignExec.v
theories/SignWorld.v
theories/PropSignHonest.v
theories/Api.v
theories/PropApi.v
theories/PropBase.v
theories/Commit.v
theories/PropCommit.v
theories/IntMod.v
theories/Dln.v
theories/PropDln.v
theories/PointEnc.v
theories/BaseParty.v
theories/AliceUtils.v
theories/Totient.v
theories/Random.v
theories/PropRandom.v
theories/Jacobi.v
theories/ModProof.v
theories/PropMod.v
theories/PropModHonest.v
theories/Primes.v
theories/PropPrimes.v
theories/SafePrime.v
theories/PropSafePrime.v
theories/RingPed.v
theories/PropRingPed.v
theories/Factor.v
theories/PropFactor.v
theories/PaillierGen.v
theories/PropPaillierGen.v
theories/Gmr.v
theories/PropGmr.v
theories/Bip32.v
theories/PropBip32.v
theories/Pocklington.v
theories/FieldP.v
theories/EdGroup.v
theories/AbGroup.v
theories/EdwardsP.v
theories/Ed25519.v
theories/PropEd25519.v
theories/PropFiat.v
theories/PropEndToEnd.v
theories/SecpField.v
theories/SecpFieldThm.v
theories/SecpNorm.v
theories/SecpOps.v
theories/SecpPrimes.v
theories/PropSecpField.v
theories/AbZ.v
theories/WGroup.v
theories/WCurve.v
theories/Secp256k1.v
theories/SecpCurve.v
theories/SecpJac.v
theories/PropSecp.v
theories/SecpMul.v
theories/SecpZero.v
theories/PropSecpCurve.v
theories/PropSave.v
theories/Ecdsa.v
theories/PropPubKey.v
theories/PropEcdsa.v
theories/PropDer.v
theories/Cipher.v
theories/PropCipher.v
theories/Registry.v
theories/Bip340.v
theories/PropBip340.v
theories/Musig.v
theories/PropMusig.v
theories/MusigCtx.v
theories/PropMusigCtx.v
theories/Der2.v
theories/PropSubgroup.v
theories/PropReplay.v
theories/Conc.v
theories/PropConc.v
theories/PropPin.v
theories/PropBlame.v
