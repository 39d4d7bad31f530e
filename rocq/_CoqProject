-Q theories Verif
theories/Words.v
theories/Spec.v
theories/SpecText.v
theories/WordsFacts.v
theories/NatModel.v
theories/NatFacts.v
theories/NatFacts2.v
theories/NatFacts3.v
theories/NatFacts4.v
theories/NatFacts5.v
theories/Properties_Nat.v
theories/NatConv.v
theories/NatConvFacts.v
theories/Properties_NatConv.v
theories/NatPow.v
theories/NatPowFacts.v
theories/Properties_NatPow.v
theories/VecPrims.v
theories/VecFacts.v
theories/Karatsuba.v
theories/KaraFacts.v
theories/KaraFacts2.v
theories/Properties_Kara.v
theories/NatExp.v
theories/NatExpFacts.v
theories/NatExpFacts2.v
theories/Properties_NatExp.v
theories/BigInt.v
theories/SpecInt.v
theories/BigIntFacts.v
theories/BigIntFacts2.v
theories/BigIntFacts3.v
theories/BigIntFacts4.v
theories/Properties_BigInt.v
theories/Rand.v
theories/SpecRand.v
theories/RandFacts.v
theories/RandFacts2.v
theories/Properties_Rand.v
theories/NatGeneric.v
theories/NatGenericFacts.v
theories/Properties_Generic.v
theories/Alias.v
theories/SpecAlias.v
theories/AliasFacts.v
theories/Properties_Alias.v
theories/Ieee.v
theories/Rat.v
theories/SpecRat.v
theories/RatFacts.v
theories/IeeeFacts.v
theories/IeeeFacts2.v
theories/RatFacts2.v
theories/RatFacts3.v
theories/RatFacts4.v
theories/Properties_Rat.v
theories/Float.v
theories/SpecFloat.v
theories/FloatFacts.v
theories/FloatFacts2.v
theories/FloatFacts3.v
theories/FloatFacts4.v
theories/FloatFacts5.v
theories/FloatFacts6.v
theories/FloatFacts7.v
theories/FloatFacts8.v
theories/Properties_Float.v
theories/FloatFacts9.v
theories/Properties_FloatOut.v
theories/Decimal.v
theories/SpecDecimal.v
theories/DecimalFacts.v
theories/DecimalFacts2.v
theories/DecimalFacts3.v
theories/DecimalFacts4.v
theories/Properties_FloatText.v
theories/NumTheory.v
theories/NumTheory2.v
theories/NumTheory3.v
theories/SpecNum.v
theories/NumBig.v
theories/NumBigFacts.v
theories/NumBigFacts2.v
theories/Properties_NumBig.v
theories/NumTheory4.v
theories/NatPrime.v
theories/SpecPrime.v
theories/NatPrimeFacts.v
theories/NatPrimeFacts2.v
theories/NatPrimeFacts3.v
theories/NatPrimeFacts4.v
theories/NatPrimeFacts5.v
theories/Properties_Prime.v
theories/AliasInt.v
theories/SpecAliasInt.v
theories/AliasIntFacts.v
theories/Properties_AliasInt.v
theories/NumTheory5.v
theories/SpecRabin.v
theories/NatPrimeFacts6.v
theories/Properties_Rabin.v
theories/NumTheory6.v
theories/Properties_Prime2.v
theories/AliasFloat.v
theories/SpecAliasFloat.v
theories/AliasFloatFacts.v
theories/Properties_AliasFloat.v
theories/AliasRat.v
theories/SpecAliasRat.v
theories/AliasRatFacts.v
theories/Properties_AliasRat.v
theories/RandClone.v
theories/SpecRandClone.v
theories/RandCloneFacts.v
theories/Properties_RandClone.v
theories/Properties_RoundTrip.v
theories/Properties_FloatUnary.v
theories/Properties_Format.v
theories/WinCrypt.v
theories/SpecWin.v
theories/WinCryptFacts.v
theories/Properties_Win.v
theories/SpecOrder.v
theories/Properties_Order.v
theories/RepoTestsNat.v
theories/RepoTestsInt.v
theories/RepoTestsRat.v
theories/Properties_BigNan.v
theories/FloatFacts10.v
theories/Properties_Ieee.v
theories/Properties_Special.v
theories/ArithAmd64.v
theories/Properties_Sse2.v
theories/AliasMixed.v
theories/SpecAliasMixed.v
theories/AliasMixedFacts.v
theories/Properties_AliasMixed.v
theories/SpecUniform.v
theories/UniformFacts.v
theories/Properties_Uniform.v
theories/SpecPeriod.v
theories/LcgPeriod.v
theories/Properties_Period.v
theories/Properties_Tight.v
theories/SpecLucas.v
theories/LucasFacts.v
theories/Properties_Lucas.v
theories/SpecRanlux.v
theories/Properties_Ranlux.v
theories/SpecGen.v
theories/GenFacts.v
theories/Properties_Generate.v
theories/SpecShift.v
theories/ShiftFacts.v
theories/Properties_Shift.v
theories/DebugFmt.v
theories/Properties_Debug.v
theories/FloatFacts11.v
theories/Properties_Quotient.v
theories/SpecPrimeCode.v
theories/PrimeExactFacts.v
theories/LucasExactFacts.v
theories/Properties_PrimeExact.v
theories/SpecLoose.v
theories/LooseFacts.v
theories/Properties_Loose.v
theories/Properties_FloatParse.v
theories/SpecExact.v
theories/LfgFacts.v
theories/RatTinyFacts.v
theories/Properties_Exact.v
theories/Properties_Total.v
theories/Properties_Total2.v
theories/Errors.v
theories/SpecErr.v
theories/ErrorsFacts.v
theories/Properties_Errors.v
theories/LooseFacts2.v
theories/Properties_Loose2.v
theories/SpecDecimal2.v
theories/DecimalFacts5.v
theories/Properties_FloatShow.v
theories/Properties_Jacobi.v
theories/FromRatFacts.v
theories/Properties_FromRat.v
theories/SpecFloatText.v
theories/Properties_FloatTexts.v
theories/Properties_RatExact.v
theories/DecimalShow.v
theories/Properties_DecimalShow.v
theories/Formatter.v
theories/SpecFormat.v
theories/Properties_Flags.v
theories/Properties_Sticky.v
theories/Properties_SetBits.v
theories/Properties_ZeroDen.v
theories/Properties_Hollow.v
theories/Properties_Flags2.v
theories/Properties_Room.v
theories/Properties_LooseExp.v
theories/IntLoose.v
theories/SpecLooseInt.v
theories/Properties_LooseInt.v
theories/Properties_LooseFloat.v
theories/Properties_LooseRat.v
theories/Properties_Loose3.v
theories/Properties_Loose4.v
theories/Properties_Loose5.v
theories/Properties_Loose6.v
theories/Properties_Loose7.v
theories/Properties_Loose8.v
