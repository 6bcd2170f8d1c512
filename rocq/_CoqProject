-Q theories Verif
theories/Base.v
theories/Utf8.v
theories/CharSets.v
theories/Combinators.v
theories/Whitespace.v
theories/QuotedString.v
theories/Base64.v
theories/QuotedPrintable.v
theories/Charset.v
theories/EncodedWord.v
theories/Percent.v
theories/Common.v
theories/Time.v
theories/Address.v
theories/MimeFields.v
theories/Fields.v
theories/Message.v
theories/Entity.v
theories/Email.v
theories/Envs.v
theories/RepoTests.v
theories/Rfc5322.v
theories/Post.v
theories/CodecSpec.v
theories/CodecArith.v
theories/Base64Proofs.v
theories/QPProofs.v
theories/PercentProofs.v
theories/Rfc2047.v
theories/RfcFields.v
theories/SoundBase.v
theories/SoundTime.v
theories/SoundAddr.v
theories/TagNoCase.v
theories/ParamProofs.v
theories/SoundFields.v
theories/EmailSpec.v
theories/SoundMessage.v
theories/MultipartSpec.v
theories/MultipartProofs.v
theories/EntitySpec.v
theories/EntityProofs.v
theories/EmailProofs.v
theories/EnvOk.v
theories/SafetyProofs.v
theories/MessageFacts.v
theories/GrammarFacts.v
theories/Steps.v
theories/MultipartRound.v
theories/EntityFacts.v
theories/Complete.v
theories/Forward.v
theories/ForwardText.v
theories/ForwardAddr.v
theories/ForwardList.v
theories/ForwardTime.v
theories/ForwardMime.v
theories/ForwardParams.v
theories/CompleteFields.v
theories/ForwardParts.v
theories/ForwardMimeFields.v
theories/ForwardTrace.v
theories/ForwardFields.v
theories/ForwardMessage.v
theories/HeaderFacts.v
theories/LocalSpec.v
theories/Local.v
theories/LocalFacts.v
theories/RecaseFacts.v
theories/KeptFacts.v
theories/Writers.v
theories/WriteFacts.v
theories/WriteAddr.v
theories/WriteRest.v
theories/Utf8Facts.v
theories/EncodedSpec.v
theories/EncodedFacts.v
theories/ParamSpec.v
theories/OrderFacts.v
theories/ParamWrite.v
theories/VersionFacts.v
theories/MimeRefute.v
theories/StringCow.v
theories/StringSpec.v
theories/StringFacts.v
theories/TextSpec.v
theories/TextFacts.v
theories/LimitFacts.v
theories/RegularSpec.v
theories/RegularFacts.v
theories/LinedFacts.v
theories/SameFacts.v
theories/LessSpec.v
theories/LessFacts.v
theories/NeatFacts.v
theories/MailSpec.v
theories/RangeFacts.v
theories/RangeWrite.v
theories/TidyFacts.v
theories/TraceFacts.v
theories/TreeSpec.v
theories/TreeFacts.v
theories/LineSpec.v
theories/LineFacts.v
theories/LessExact.v
theories/CutSpec.v
theories/CutFacts.v
theories/KeenFacts.v
theories/ExactSpec.v
theories/ExactFacts.v
theories/PhraseSpec.v
theories/MimeExactSpec.v
theories/MimeExactParts.v
theories/MimeExactBack.v
theories/MimeExactHeads.v
theories/PhraseFacts.v
theories/PhraseBox.v
theories/PhraseHeads.v
theories/MimeExactFields.v
theories/MimeExactFacts.v
theories/Timed.v
theories/TimedErase.v
theories/TimedFacts.v
theories/TimedWords.v
theories/TimedAddr.v
theories/TimedBox.v
theories/TimedVals.v
theories/TimedHead.v
theories/TimedMail.v
theories/TimedPays.v
theories/PropCodecs.v
theories/PropSafety.v
theories/PropMessage.v
theories/PropDates.v
theories/PropAddr.v
theories/PropMultipart.v
theories/PropHeaders.v
theories/PropWrite.v
theories/PropMime.v
theories/PropString.v
theories/PropText.v
theories/PropLimits.v
theories/PropRange.v
theories/PropTree.v
theories/PropLines.v
theories/PropCut.v
theories/PropExact.v
theories/PropMimeExact.v
theories/DebugSpec.v
theories/DebugFacts.v
theories/DebugPanic.v
theories/DebugMore.v
theories/PropDebug.v
theories/PartExactSpec.v
theories/PartExactFacts.v
theories/PartExactTrees.v
theories/PropPart.v
theories/RefuseSpec.v
theories/RefuseFacts.v
theories/RefuseParts.v
theories/PropRefuse.v
theories/ShownSpec.v
theories/ShownFacts.v
theories/ShownWriters.v
theories/PropShown.v
theories/PropTimed.v
theories/TimedCodec.v
theories/TimedCodecFacts.v
theories/TimedCodecLow.v
theories/TimedSearch.v
theories/PropCodecCost.v
theories/TimedMime.v
theories/TimedMimeErase.v
theories/TimedMimeFacts.v
theories/TimedMimeBox.v
theories/TimedMimeParam.v
theories/TimedMimeHead.v
theories/TimedMimeMail.v
theories/TimedMimeLow.v
theories/PropMimeCost.v
theories/MimeMailSpec.v
theories/MimeRange.v
theories/MimeRangeWrite.v
theories/PropMimeRange.v
theories/ZeroCopy.v
theories/ZeroSpec.v
theories/ZeroFacts.v
theories/ZeroStrings.v
theories/ZeroExact.v
theories/PropZero.v
theories/ZeroParts.v
theories/ZeroPartsSpec.v
theories/ZeroPartsFacts.v
theories/ZeroTree.v
theories/PropZeroParts.v
theories/SizeSpec.v
theories/SizeFacts.v
theories/SizeMail.v
theories/SizeLow.v
theories/PropSize.v
theories/GrowSpec.v
theories/GrowFacts.v
theories/GrowLow.v
theories/PropGrow.v
theories/MimeRfcSpec.v
theories/MimeRfcFacts.v
theories/MimeRfcMore.v
theories/PropMimeRfc.v
theories/Rfc2046Spec.v
theories/Rfc2046Facts.v
theories/PropRfc2046.v
theories/UnencodedSpec.v
theories/UnencodedFacts.v
theories/PropUnencoded.v
theories/Display.v
theories/DisplaySpec.v
theories/DisplayFacts.v
theories/PropDisplay.v
theories/TreeWorkSpec.v
theories/TreeWorkFacts.v
theories/PropTreeWork.v
theories/ObsoleteSpec.v
theories/ObsoleteFacts.v
theories/PropObsolete.v
theories/InertSpec.v
theories/InertFacts.v
theories/PropInert.v
theories/TruncSpec.v
theories/TruncFacts.v
theories/PropTrunc.v
theories/NeverSpec.v
theories/NeverFacts.v
theories/NeverParts.v
theories/PropNever.v
theories/LoneSpec.v
theories/LoneFacts.v
theories/PropLone.v
theories/ByLineSpec.v
theories/ByLineFacts.v
theories/ByLineMime.v
theories/ByLineParts.v
theories/ByLineLate.v
theories/PropByLine.v
