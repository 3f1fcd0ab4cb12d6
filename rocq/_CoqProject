-Q theories Verif
theories/Base.v
theories/BaseFacts.v
theories/Utf8.v
theories/Types.v
theories/Io.v
theories/Parser.v
theories/IoFacts.v
theories/MonadFacts.v
theories/Values.v
theories/Loaders.v
theories/ParserSteps.v
theories/ParserShape.v
theories/SpecHist.v
theories/ParserHist.v
theories/Spec.v
theories/Zlib.v
theories/Samples.v
theories/PropsHeader.v
theories/ReadFacts.v
theories/ParserPos.v
theories/PropsEvents.v
theories/ParserSafe.v
theories/PropsSafety.v
theories/ParserRel.v
theories/PropsRel.v
theories/Moves.v
theories/AttrLoad.v
theories/AttrAny.v
theories/PropsAttr.v
theories/SpecFacts.v
theories/DocCursor.v
theories/FooterFacts.v
theories/Peer.v
theories/DocTrace.v
theories/DocRef.v
theories/PropsDoc.v
theories/PropsFooter.v
theories/PropsPlain.v
theories/Writer.v
theories/WriterFacts.v
theories/WriterSpec.v
theories/WriterSim.v
theories/Utf8Facts.v
theories/WriterNodes.v
theories/PropsWriter.v
theories/PropsRound.v
theories/WriterTotal.v
theories/PropsSink.v
theories/PropsIterErr.v
theories/Tree.v
theories/TreeFacts.v
theories/TreeSpec.v
theories/TreeLinks.v
theories/TreeOps.v
theories/TreePaths.v
theories/PropsTree.v
theories/PropsTreeEq.v
theories/PropsTraverse.v
theories/TreeIo.v
theories/TreeIoSpec.v
theories/TreeWrite.v
theories/TreeLoad.v
theories/TreeRound.v
theories/PropsTreeIo.v
theories/CutRel.v
theories/CutParser.v
theories/CutLoad.v
theories/PropsTrunc.v
theories/EscRel.v
theories/PropsTyped.v
theories/PropsVersion.v
theories/PropsAnyTree.v
theories/Assumptions.v
theories/PropsHandler.v
theories/SpecPos.v
theories/WarnPos.v
theories/PropsPos.v
theories/PropsAttrPos.v
theories/SpecLayout.v
theories/Layout.v
theories/LayoutIn.v
theories/LayoutOut.v
theories/PropsLayout.v
theories/SpecErr.v
theories/ErrFacts.v
theories/PropsErr.v
theories/SpecTruth.v
theories/Truth.v
theories/PropsTruth.v
theories/SpecStored.v
theories/StoredFacts.v
theories/PropsStored.v
theories/SpecCrash.v
theories/Ends.v
theories/CrashFile.v
theories/CrashWriter.v
theories/PropsCrash.v
theories/PropsIter.v
theories/PropsAlloc.v
theories/PropsCrashPlain.v
theories/PropsValue.v
theories/PropsIds.v
theories/PropsBuild.v
theories/SpecReader.v
theories/PropsReader.v
theories/PropsItems.v
theories/SpecFail.v
theories/PropsFail.v
theories/ErrView.v
theories/PropsErrView.v
theories/LoadTyped.v
theories/PropsNorm.v
theories/PropsCausal.v
theories/TreeDebug.v
theories/PropsDebug.v
theories/Narrow.v
theories/PropsTarget.v
theories/LoadSize.v
theories/PropsRewrite.v
theories/PropsCopy.v
theories/Messages.v
theories/PropsMessages.v
theories/PropsEmbed.v
theories/PropsWalkEdit.v
theories/TreeCmp.v
theories/PropsTreeCmp.v
theories/PropsSinkRel.v
theories/PropsInARow.v
theories/PropsDepth.v
theories/Deflate.v
theories/PropsDeflate.v
theories/PropsStep.v
theories/TreeIter.v
theories/PropsIterate.v
theories/PropsForest.v
theories/PropsExpand.v
theories/PropsDamage.v
theories/PropsPick.v
theories/PropsPatch.v
theories/PropsOneDoc.v
theories/PropsLength.v
theories/PropsSettled.v
