-Q theories Verif
theories/Base.v
theories/Float64.v
theories/Json.v
theories/Schema.v
theories/Util.v
theories/Rand.v
theories/Options.v
theories/Number.v
theories/FloatFacts.v
theories/NumberFacts.v
theories/NumberThm.v
theories/SpecNumber.v
theories/NumberProps.v
theories/NumberGrain.v
theories/BudgetFacts.v
theories/NumberRefute.v
theories/NumberWide.v
theories/NumberSharp.v
theories/P_Number.v
theories/Gen.v
theories/GenFacts.v
theories/GenInv.v
theories/GenRel.v
theories/GenValues.v
theories/GenProps.v
theories/P_Gen.v
theories/NodeFacts.v
theories/Codec.v
theories/CodecFacts.v
theories/CodecThm.v
theories/CodecProps.v
theories/SpecText.v
theories/TextProps.v
theories/P_Codec.v
theories/P_Text.v
theories/PState.v
theories/RefPath.v
theories/Merge.v
theories/NotMerge.v
theories/Parse.v
theories/PFacts.v
theories/ParseKeep.v
theories/SpecSchema.v
theories/SpecParse.v
theories/MergeFacts.v
theories/HcfFacts.v
theories/MergeProps.v
theories/P_Merge.v
theories/NotProps.v
theories/P_Not.v
theories/SpecRun.v
theories/ParseShape.v
theories/ValueProps.v
theories/ConstrProps.v
theories/AllOfValues.v
theories/Combos.v
theories/MergeFlat.v
theories/NotValues.v
theories/ValueTypes.v
theories/ValueDemo.v
theories/P_Values.v
theories/P_Constr.v
theories/P_Combos.v
theories/SpecRef.v
theories/RefProps.v
theories/P_Ref.v
theories/Rng.v
theories/Regen.v
theories/SpecRegex.v
theories/RegenProps.v
theories/RegenSimplify.v
theories/PatternText.v
theories/P_Regen.v
theories/Fetch.v
theories/SpecFetch.v
theories/DocProps.v
theories/DocWaits.v
theories/SpecRefs.v
theories/RefTree.v
theories/RefRounds.v
theories/ParseReport.v
theories/FetchProps.v
theories/P_Fetch.v
theories/FuelMono.v
theories/Terminate.v
theories/ParseEnds.v
theories/ParseLoop.v
theories/Seed.v
theories/Shuffle.v
theories/P_Rand.v
theories/ReachNum.v
theories/Reach.v
theories/P_Reach.v
theories/Race.v
theories/P_Race.v
theories/P_Parse.v
theories/Api.v
theories/P_Api.v
theories/SpecNegate.v
theories/NotKeep.v
theories/NotSound.v
theories/MergeKeep.v
theories/NotRest.v
theories/SpecFragment.v
theories/Sound.v
theories/Names.v
theories/NamesTidy.v
theories/Conditional.v
theories/SpecLinked.v
theories/Linked.v
theories/P_Sound.v
theories/P_Conditional.v
theories/P_Negate.v
theories/P_NotRest.v
theories/P_Linked.v
theories/SpecPanic.v
theories/NumberSafe.v
theories/Rewrite.v
theories/Tame.v
theories/NoPanic.v
theories/P_Panic.v
theories/SpecFormats.v
theories/Formats.v
theories/FormatFacts.v
theories/FormatTimes.v
theories/FormatNames.v
theories/FormatMail.v
theories/P_Formats.v
theories/P_Mail.v
theories/JEq.v
theories/SpecMerge.v
theories/MergeValid.v
theories/MergeStep.v
theories/MergeMany.v
theories/MergeSound.v
theories/MergeLoss.v
theories/P_Refs.v
theories/P_Report.v
theories/SpecCalm.v
theories/Calm.v
theories/P_Calm.v
theories/SpecTries.v
theories/Tries.v
theories/TriesMany.v
theories/P_Tries.v
theories/Errors.v
theories/ErrorsProps.v
theories/P_Errors.v
theories/SpecAccept.v
theories/Accept.v
theories/P_Accept.v
