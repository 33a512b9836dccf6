-Q theories Verif
theories/Std.v
theories/Traits.v
theories/OptionBucket.v
theories/Hashbrown.v
theories/MapStorages.v
theories/SetStorages.v
theories/DeriveUnit.v
theories/DeriveAny.v
theories/Key.v
theories/Api.v
theories/Spec.v
theories/Reach.v
theories/History.v
theories/Samples.v
theories/IterLaws.v
theories/DropSpec.v
theories/DropLaws.v
theories/MapCore.v
theories/MapLaws.v
theories/OptLaws.v
theories/HashLaws.v
theories/UnitLaws.v
theories/AnyLaws.v
theories/SetCore.v
theories/SetLaws.v
theories/BitLaws.v
theories/AnySetLaws.v
theories/KeyLaws.v
theories/IterFacts.v
theories/MapFacts.v
theories/HistProofs.v
theories/MapProofs.v
theories/IterProofs.v
theories/SetHistory.v
theories/SetFacts.v
theories/SetProofs.v
theories/KeyFacts.v
theories/TwinProofs.v
theories/PropsMap.v
theories/PropsSet.v
theories/PropsEntry.v
theories/StateSpec.v
theories/StateProofs.v
theories/Debug.v
theories/DebugProofs.v
theories/OrdSpec.v
theories/OrdProofs.v
theories/RawProofs.v
theories/PropsIter.v
theories/PropsOrd.v
theories/PropsBits.v
theories/Front.v
theories/FrontSpec.v
theories/FrontProofs.v
theories/PropsDerive.v
theories/PropsState.v
theories/BucketSpec.v
theories/BucketProofs.v
theories/BuildProofs.v
theories/PropsBucket.v
theories/PropsBuild.v
theories/Avail.v
theories/AvailSpec.v
theories/AvailProofs.v
theories/PropsAvail.v
theories/RepoTests.v
theories/EffectSpec.v
theories/EffectProofs.v
theories/ClearSpec.v
theories/ClearProofs.v
theories/PropsEffect.v
theories/ComposeSpec.v
theories/ComposeProofs.v
theories/ComposeSample.v
theories/PropsCompose.v
theories/ComposeSets.v
theories/ComposeSetSample.v
theories/PropsComposeSet.v
theories/FullSpec.v
theories/FullProofs.v
theories/PropsFull.v
theories/RenameSpec.v
theories/RenameProofs.v
theories/PropsRename.v
theories/Names.v
theories/NamesSpec.v
theories/NamesProofs.v
theories/PropsNames.v
theories/EqSpec.v
theories/EqProofs.v
theories/PropsEq.v
theories/OrdCallSpec.v
theories/OrdCallProofs.v
theories/PropsOrdCall.v
theories/Rust.v
theories/UnitCode.v
theories/CodeSpec.v
theories/RustFacts.v
theories/UnitCodeProofs.v
theories/UnitCodeModel.v
theories/PropsCode.v
theories/AnyCode.v
theories/AnyRun.v
theories/AnyCodeSpec.v
theories/AnyCodeFacts.v
theories/AnyCodeKeys.v
theories/AnyCodeMap.v
theories/AnyCodeEntry.v
theories/AnyCodeOps.v
theories/AnyCodeIter.v
theories/AnyCodeArms.v
theories/AnyCodeViews.v
theories/AnyCodeSets.v
theories/AnyRetains.v
theories/AnyCodeMain.v
theories/PropsAny.v
theories/AnyRefSpec.v
theories/AnyRef.v
theories/AnyRefMain.v
theories/AnyRefSet.v
theories/PropsAnyRef.v
theories/CloneUndo.v
theories/Sources.v
theories/DropProofs.v
theories/DropMain.v
theories/PropsDrop.v
theories/SourceSpec.v
theories/SourceProofs.v
theories/PropsSource.v
theories/Program.v
theories/ProgramSpec.v
theories/ProgramProofs.v
theories/ProgramLedger.v
theories/ProgramMain.v
theories/PropsProgram.v
theories/SetProgram.v
theories/SetProgramSpec.v
theories/SetProgramProofs.v
theories/SetProgramMain.v
theories/SetProgramUnique.v
theories/PropsSetProgram.v
theories/Fmt.v
theories/FmtSpec.v
theories/FmtProofs.v
theories/FmtText.v
theories/PropsFmt.v
theories/SrcText.v
theories/SrcLex.v
theories/SrcParse.v
theories/SrcStd.v
theories/SrcRun.v
theories/SrcSpec.v
theories/SrcFiles.v
theories/SrcProofs.v
theories/SrcForeign.v
theories/SrcBool.v
theories/SrcSingle.v
theories/SrcSets.v
theories/SrcOption.v
theories/SrcOption2.v
theories/SrcHash.v
theories/SrcSets2.v
theories/SrcWhole.v
theories/SrcMain.v
theories/SrcSound.v
theories/PropsText.v
theories/DeriveText.v
theories/DeriveQuote.v
theories/DeriveRead.v
theories/DeriveInst.v
theories/DeriveCode.v
theories/DeriveItems.v
theories/DeriveEqual.v
theories/DeriveMain.v
theories/PropsDeriveText.v
theories/SrcFront.v
theories/SrcFrontMap.v
theories/SrcFrontEntry.v
theories/SrcFrontWhole.v
theories/SrcFrontLoop.v
theories/SrcFrontSound.v
theories/SrcFrontSetSpec.v
theories/SrcFrontSet.v
theories/SrcFrontSetLoop.v
theories/SrcFrontMain.v
theories/SrcFrontSerde.v
theories/SrcFrontSerdeProofs.v
theories/PropsFrontText.v
theories/PropsSerdeText.v
theories/SrcSupport.v
theories/SrcSupportSpec.v
theories/SrcSupportProofs.v
theories/SrcSupportFacts.v
theories/PropsSupportText.v
theories/DeriveTraits.v
theories/DeriveTraitsProofs.v
theories/PropsTraitsText.v
theories/KeyText.v
theories/KeyRead.v
theories/KeyReadProofs.v
theories/PropsKeyText.v
theories/AttrText.v
theories/AttrRun.v
theories/AttrProofs.v
theories/PropsAttrText.v
