-Q theories Verif
theories/Base.v
theories/Num.v
theories/Yaml.v
theories/Parser.v
theories/Grammar.v
theories/Loader.v
theories/Dumper.v
theories/Serde.v
theories/Scan.v
theories/Scan2.v
theories/NodeFacts.v
theories/PropNode.v
theories/PropMisc.v
theories/PropText.v
theories/PropScan.v
theories/PropScan2.v
theories/PropNum.v
theories/PropFloat.v
theories/PropFloat2.v
theories/PropBack.v
theories/Inv.v
theories/InvBase.v
theories/InvLoader.v
theories/InvParse.v
theories/PropCursor.v
theories/PropParse.v
theories/PropAnchor.v
theories/Utf8.v
theories/PropUtf8.v
theories/PropLossy.v
theories/PropQuoted.v
theories/Leaf.v
theories/DocRun.v
theories/PropScalar.v
theories/FlowRun.v
theories/PropJson.v
theories/PropJson2.v
theories/Frame.v
theories/PropDirective.v
theories/PropTag.v
theories/PropFloat3.v
theories/PropSerde.v
theories/PropSerde2.v
theories/PropSerde3.v
theories/Untagged.v
theories/PropHelper.v
theories/Sharing.v
theories/PropShare.v
theories/Debug.v
theories/PropDebug.v
theories/PropLiteral.v
theories/Block.v
theories/BlockRun.v
theories/BlockRun2.v
theories/BlockRun3.v
theories/PropBlock.v
theories/PropDump2.v
theories/PropDump.v
theories/PropString.v
theories/FoldSpec.v
theories/Fold.v
theories/Gram.v
theories/GramBase.v
theories/GramLeaf.v
theories/PlainRun.v
theories/GramFlow.v
theories/GramRun.v
theories/GramRun2.v
theories/PropGram.v
theories/PropFold.v
theories/PropPlain.v
theories/PropDump3.v
theories/PropDump4.v
theories/Term.v
theories/TermQuote.v
theories/TermBase.v
theories/TermLoader.v
theories/PropTerm.v
theories/Fuel.v
theories/FuelLoops.v
theories/PropFuel.v
theories/Twin.v
theories/PropModes.v
theories/PropOrder.v
theories/PropWin.v
theories/Build.v
theories/PropBuild.v
theories/PropNumber.v
theories/Single.v
theories/PropSingle.v
theories/Margin.v
theories/Shift.v
theories/PropShift.v
theories/Foreign.v
theories/PropForeign.v
theories/Conform.v
