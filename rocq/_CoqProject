-Q theories Verif
theories/Base.v
theories/Gfmt.v
theories/Atoms.v
theories/PdfSpec.v
theories/GfmtProofs.v
theories/AtomsProofs.v
theories/FileProofs.v
theories/NameProofs.v
theories/Properties_Atoms.v
theories/Num.v
theories/Fonts.v
theories/State.v
theories/Style.v
theories/TextSpec.v
theories/StateProofs.v
theories/Properties_Style.v
theories/FontSpec.v
theories/FontProofs.v
theories/Properties_Fonts.v
theories/Words.v
theories/WordsSpec.v
theories/Parse.v
theories/WordProofs.v
theories/Render.v
theories/RenderSpec.v
theories/RenderProofs.v
theories/WordWidth.v
theories/WordOps.v
theories/Properties_Words.v
theories/Hyphen.v
theories/Properties_Hyphen.v
theories/Firstfit.v
theories/LineSpec.v
theories/FirstfitProofs.v
theories/FirstfitWidth.v
theories/Properties_Firstfit.v
theories/KnuthPlass.v
theories/KPSpec.v
theories/KPProofs.v
theories/Properties_KnuthPlass.v
theories/Optimum.v
theories/OptimumProofs.v
theories/OptimumWidth.v
theories/OptimumLines.v
theories/OptimumTotal.v
theories/Properties_Optimum.v
theories/Common.v
theories/Properties_Common.v
theories/Show.v
theories/Draw.v
theories/DrawSpec.v
theories/Properties_Draw.v
theories/TextBlock.v
theories/TextPos.v
theories/Properties_Text.v
theories/Layout.v
theories/LayoutSpec.v
theories/LayoutProofs.v
theories/LayoutText.v
theories/LayoutPages.v
theories/LayoutRoom.v
theories/LayoutStyle.v
theories/Properties_Layout.v
theories/Document.v
theories/FontsUsed.v
theories/DocumentSpec.v
theories/DocumentProofs.v
theories/Properties_Document.v
theories/BuiltinTables.v
theories/Builtins.v
theories/Properties_Builtins.v
theories/ContentSpec.v
theories/ContentProofs.v
theories/ContentOps.v
theories/ReaderSpec.v
theories/ReaderText.v
theories/ReaderDoc.v
theories/ContentText.v
theories/ReaderStd.v
theories/ReaderParas.v
theories/ReaderDraw.v
theories/ReaderFonts.v
theories/Properties_Reader.v
theories/KernSpec.v
theories/KernProofs.v
theories/Properties_Kern.v
theories/HyphenSpec.v
theories/HyphenProofs.v
theories/HyphenData.v
theories/Properties_Liang.v
theories/Gpos.v
theories/GposSpec.v
theories/GposProofs.v
theories/GposKern.v
theories/Properties_Gpos.v
theories/TrueType.v
theories/Properties_TrueType.v
theories/LayoutInside.v
theories/Properties_Inside.v
theories/Fuel.v
theories/LayoutTotal.v
theories/SuccessProofs.v
theories/SuccessDoc.v
theories/Properties_Success.v
theories/Float64.v
theories/FloatProofs.v
theories/NumLaws.v
theories/NumInstances.v
theories/LayoutLaws.v
theories/Properties_Float.v
theories/Units.v
theories/Properties_Units.v
theories/LayoutRules.v
theories/OptimalSpec.v
theories/OptimalProofs.v
theories/Properties_Optimal.v
theories/LineKernSpec.v
theories/LineKernProofs.v
theories/Properties_LineKern.v
theories/OptimumOrphans.v
theories/Properties_Orphans.v
theories/Properties_Mixed.v
theories/SceneSpec.v
theories/SceneProofs.v
theories/Properties_Scene.v
theories/Properties_Prefix.v
theories/GreedySpec.v
theories/GreedyProofs.v
theories/Properties_Greedy.v
theories/NumbersUsed.v
theories/Printable.v
theories/ShortWords.v
theories/PlainDoc.v
theories/Properties_Plain.v
theories/RoundErr.v
theories/FloatLines.v
theories/FloatWidths.v
theories/FloatText.v
theories/FloatPara.v
theories/Properties_Round.v
theories/FloatTotal.v
theories/LawTotal.v
theories/Properties_RoundOk.v
theories/Properties_Wider.v
theories/FloatOptimum.v
theories/Properties_RoundOpt.v
theories/WritesTotal.v
theories/FloatWrites.v
theories/Properties_RoundWrite.v
theories/FloatJustify.v
theories/Properties_RoundJust.v
theories/FloatJustified.v
theories/FloatRules.v
theories/LawRules.v
theories/LayoutMoved.v
theories/SceneMoved.v
theories/Properties_Moved.v
theories/Regroup.v
theories/Recut.v
theories/Properties_Regroup.v
theories/ScaleWords.v
theories/ScaleText.v
theories/ScaleLines.v
theories/ScaleOptimum.v
theories/ScaleLayout.v
theories/ScaleRender.v
theories/Properties_Scale.v
theories/Properties_Colours.v
