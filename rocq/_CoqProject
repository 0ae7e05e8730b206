-Q theories Verif
theories/Base.v
theories/Word.v
theories/Limbs.v
theories/SpecField.v
theories/LimbsFacts.v
theories/Bytes.v
theories/Field.v
theories/FieldFacts.v
theories/BytesFacts.v
theories/FieldSerdeFacts.v
theories/Params.v
theories/Props_Field.v
theories/Algebra.v
theories/Tower.v
theories/SpecTower.v
theories/TowerFacts.v
theories/Pow.v
theories/FiniteField.v
theories/PrimeField.v
theories/FrobeniusFacts.v
theories/Primality.v
theories/Certs.v
theories/Compute.v
theories/TowerParams.v
theories/TowerInst.v
theories/Props_Tower.v
theories/SpecCurve.v
theories/SpecCurveFacts.v
theories/Curve.v
theories/CurveFacts.v
theories/Group.v
theories/CurveGroup.v
theories/CurveParams.v
theories/CurveCheck.v
theories/CurveCerts.v
theories/CurveInst.v
theories/CrateCurves.v
theories/Props_Curve.v
theories/Inverse.v
theories/InverseFacts.v
theories/ConvertFacts.v
theories/Divstep.v
theories/InvertFacts.v
theories/LimbField.v
theories/GenCerts.v
theories/ConstFacts.v
theories/Sqrt.v
theories/SqrtFacts.v
theories/Props_Field2.v
theories/Fft.v
theories/FftFacts.v
theories/FftSched.v
theories/FftInst.v
theories/Props_Fft.v
theories/Msm.v
theories/MsmFacts.v
theories/MsmBest.v
theories/Props_Msm.v
theories/Sqrt2.v
theories/Sqrt2Facts.v
theories/Props_Sqrt2.v
theories/Serde.v
theories/SerdeFacts.v
theories/OrderFacts.v
theories/SerdeInst.v
theories/SmallOrder.v
theories/Props_Serde.v
theories/Endo.v
theories/EndoFacts.v
theories/Props_Endo.v
theories/Hash.v
theories/SpecHash.v
theories/HashFacts.v
theories/Props_Hash.v
theories/H2cParams.v
theories/H2c.v
theories/SpecH2c.v
theories/H2cFacts.v
theories/IsoFacts.v
theories/H2cInst.v
theories/H2cSuites.v
theories/H2cSuiteFacts.v
theories/Props_H2c.v
theories/PairingParams.v
theories/Pairing.v
theories/PairingFacts.v
theories/PairingInst.v
theories/Props_Pairing.v
theories/SpecPairing.v
theories/PairingLines.v
theories/TwistFrob.v
theories/PairingMiller.v
theories/Props_Miller.v
theories/Cofactor.v
theories/CofactorFacts.v
theories/GroupSum.v
theories/CurveSum.v
theories/PointFacts.v
theories/CofPoints.v
theories/CofCerts.v
theories/CofGroups.v
theories/CofGroups2.v
theories/CofBls2.v
theories/CofBn2.v
theories/CofTriton.v
theories/Props_Cofactor.v
theories/SpecJacobi.v
theories/JacSymFacts.v
theories/Jacobi.v
theories/JacobiLint.v
theories/JacobiInner.v
theories/JacobiProg.v
theories/JacobiFacts.v
theories/JacobiLoop.v
theories/JacobiField.v
theories/Props_Jacobi.v
theories/Divisors.v
theories/Bilinear.v
theories/BilinearTower.v
theories/Props_Bilinear.v
theories/PairingEval.v
theories/Props_Nondeg.v
theories/Asm.v
theories/AsmFacts.v
theories/Props_Asm.v
theories/Sha256.v
theories/HashToCurve.v
theories/H2cUnique.v
theories/Props_HashToCurve.v
theories/Props_HashSign.v
theories/Sha512.v
theories/HashVectors.v
theories/HashVectors2.v
theories/Random.v
theories/Props_Random.v
theories/FrTable.v
theories/Props_Table.v
theories/SerdeText.v
theories/Props_SerdeText.v
theories/Props_Panics.v
theories/Props_Cycle.v
theories/MsmSched.v
theories/MsmSchedFacts.v
theories/Props_Sched.v
theories/Props_Ln.v
theories/DivstepBound.v
theories/InvertRounds.v
theories/Props_Rounds.v
theories/Props_JacRounds.v
theories/Props_Poly.v
theories/Props_Cosets.v
theories/FieldMisc.v
theories/Props_FieldMisc.v
theories/Debug.v
theories/DebugFacts.v
theories/DebugJacobi.v
theories/Props_Debug.v
theories/Ecdsa.v
theories/EcdsaFacts.v
theories/Props_Ecdsa.v
theories/Props_Signature.v
theories/Text.v
theories/Props_Text.v
theories/Props_Commit.v
theories/Select.v
theories/Props_Select.v
