-Q theories Verif
theories/Base.v
theories/Regex.v
theories/Lex.v
theories/LexProofs.v
theories/LexClass.v
theories/PropLex.v
theories/TextOps.v
theories/TextProofs.v
theories/PropText.v
theories/Config.v
theories/MainLoop.v
theories/PropConfig.v
theories/PropMain.v
theories/Tree.v
theories/Parse.v
theories/ParseProofs.v
theories/PropParse.v
theories/ParseTerm.v
theories/PropTerm.v
theories/CmdSpec.v
theories/StdSpecs.v
theories/StdDb.v
theories/StdWf.v
theories/PropStd.v
theories/PropSpec.v
theories/PropBlocks.v
theories/Layout.v
theories/LayoutProofs.v
theories/Pieces.v
theories/LayoutCols.v
theories/SortProofs.v
theories/PropSort.v
theories/Writing.v
theories/PropLayout.v
theories/LayKids.v
theories/Markup.v
theories/MarkupProofs.v
theories/PropMarkup.v
theories/Pipeline.v
theories/ParseShape.v
theories/StdShape.v
theories/NamesShape.v
theories/CommentShape.v
theories/TidyShape.v
theories/PropFile.v
theories/PropPass.v
theories/OffSpan.v
theories/PropOff.v
theories/PropEol.v
theories/PropCase.v
theories/Render.v
theories/LintDb.v
theories/Lint.v
theories/PropLint.v
theories/PropLintText.v
theories/ArgShape.v
theories/LintTree.v
theories/PropLintChecks.v
theories/PropLintDefs.v
theories/PropLintMore.v
theories/Reread.v
theories/WordShape.v
theories/CommentFree.v
theories/PropReread.v
theories/ParseBlank.v
theories/ParseSame.v
theories/BodySame.v
theories/OutSame.v
theories/StdSame.v
theories/PropSame.v
theories/LaySame.v
theories/Places.v
theories/LayBlock.v
theories/ParseLines.v
theories/StmtSame.v
theories/IdemCore.v
theories/PropIdem.v
theories/PropTexts.v
theories/CTest.v
theories/Dump.v
theories/PropDemo.v
theories/PropCheck.v
theories/PropCheckFile.v
theories/Genparsers.v
theories/PropGen.v
theories/PropClean.v
theories/PropIndent.v
theories/Walk.v
theories/PropLines.v
theories/OneLine.v
theories/PropOneLine.v
theories/PropLintCrash.v
theories/Places2.v
theories/ParseLines2.v
theories/LayBlock2.v
theories/IdemCore2.v
theories/PropIdem2.v
theories/PropCheckFile2.v
theories/LintShape.v
theories/PropReport.v
theories/ParserLint.v
theories/PropRemarks.v
theories/PropNames.v
theories/PropLintRest.v
theories/PropHalf.v
theories/PropLintCodes.v
theories/PropPlaces.v
theories/PropFirst.v
theories/PropAutosort.v
theories/PropDangle.v
theories/PropProse.v
theories/PropTall.v
theories/PropLimits.v
theories/PropSpan.v
theories/PyConfig.v
theories/PropPyConfig.v
theories/PropNest.v
theories/PropTotal.v
theories/PropClosed.v
theories/CmdLine.v
theories/PropCmd.v
theories/Entry.v
theories/PropEntry.v
theories/LintEntry.v
theories/PropLintEntry.v
theories/AnnotEntry.v
theories/PropAnnotEntry.v
theories/AnnotPage.v
theories/PropTabs.v
theories/GenEntry.v
theories/PropAgain.v
