-Q theories Verif
theories/Base.v
theories/Len.v
theories/DomModel.v
theories/DomSpec.v
theories/DomForest.v
theories/DomLists.v
theories/DomProofs.v
theories/DomTraverse.v
theories/DomFacts.v
theories/DomExample.v
theories/PropDom.v
theories/GeomModel.v
theories/GeomSpec.v
theories/GeomProofs.v
theories/PropGeom.v
theories/GfxModel.v
theories/GfxSpec.v
theories/GfxProofs.v
theories/GfxDevice.v
theories/CStrModel.v
theories/CStrProofs.v
theories/PropGfx.v
theories/StyleModel.v
theories/StyleSpec.v
theories/StyleCascade.v
theories/StyleWinner.v
theories/StyleParse.v
theories/StyleFacts.v
theories/StyleExample.v
theories/PropStyle.v
theories/SelModel.v
theories/SelSpec.v
theories/SelProofs.v
theories/PropSel.v
theories/InlineModel.v
theories/InlineSpec.v
theories/InlineWrap.v
theories/InlineProofs.v
theories/InlineFacts.v
theories/PropInline.v
theories/BlockModel.v
theories/BlockSpec.v
theories/BlockFrame.v
theories/BlockGen.v
theories/BlockStack.v
theories/BlockProofs.v
theories/BlockFlow.v
theories/BlockAbs.v
theories/BlockRel.v
theories/BlockMove.v
theories/PageSpec.v
theories/PageProofs.v
theories/PropBlock.v
theories/TreeModel.v
theories/TreeSpec.v
theories/TreeFacts.v
theories/TreeProofs.v
theories/TreeInv.v
theories/TreeText.v
theories/UnsetModel.v
theories/UnsetProofs.v
theories/PropTree.v
theories/PaintModel.v
theories/PaintSpec.v
theories/PaintProofs.v
theories/PropPaint.v
theories/TextSpec.v
theories/TextProofs.v
theories/PropText.v
theories/VertSpec.v
theories/VertProofs.v
theories/PropVert.v
theories/GcModel.v
theories/GcSpec.v
theories/GcProofs.v
theories/PropGc.v
theories/UaModel.v
theories/UaSpec.v
theories/UaProofs.v
theories/UaDoc.v
theories/PropUa.v
theories/RModel.v
theories/RSpec.v
theories/RProofs.v
theories/PropR.v
theories/ShareModel.v
theories/ShareSpec.v
theories/ShareProofs.v
theories/PropShare.v
theories/PropEnd.v
theories/StaticSpec.v
theories/StaticProofs.v
theories/PropStatic.v
theories/ValueSpec.v
theories/PropValue.v
theories/JumpModel.v
theories/JumpSpec.v
theories/PropJump.v
theories/F32.v
theories/F32Facts.v
theories/PropF32.v
theories/TidySpec.v
theories/TidyProofs.v
theories/PropTidy.v
theories/IsoSpec.v
theories/IsoProofs.v
theories/PropIso.v
theories/ScaleSpec.v
theories/ScaleProofs.v
theories/ScaleStyle.v
theories/PropScale.v
theories/AppendSpec.v
theories/AppendBox.v
theories/AppendProofs.v
theories/AppendExact.v
theories/PropAppend.v
theories/AttrSpec.v
theories/AttrProofs.v
theories/PropAttr.v
theories/RecolorSpec.v
theories/RecolorProofs.v
theories/RecolorStyle.v
theories/PropRecolor.v
theories/InlineCount.v
theories/WordSpec.v
theories/WordProofs.v
theories/PropLines.v
theories/OffsetSpec.v
theories/OffsetProofs.v
theories/PropOffset.v
theories/RefactorSpec.v
theories/RefactorProofs.v
theories/PropRefactor.v
theories/PrependSpec.v
theories/PrependBox.v
theories/PrependProofs.v
theories/PropPrepend.v
theories/WrapSpec.v
theories/WrapInline.v
theories/WrapBlock.v
theories/WrapTree.v
theories/PropWrap.v
theories/EncModel.v
theories/EncSpec.v
theories/PropEnc.v
theories/UnboxSpec.v
theories/UnboxProofs.v
theories/UnboxBox.v
theories/PropUnbox.v
theories/ContentsSpec.v
theories/ContentsProofs.v
theories/PropContents.v
theories/EdgesSpec.v
theories/EdgesProofs.v
theories/PropEdges.v
theories/PropStyled.v
theories/ContainSpec.v
theories/ContainProofs.v
theories/PropContain.v
theories/LetterSpec.v
theories/LetterProofs.v
theories/PropLetter.v
theories/AlignSpec.v
theories/AlignStyle.v
theories/AlignProofs.v
theories/AlignPaint.v
theories/PropAlign.v
theories/ExceptSpec.v
theories/LevelSpec.v
theories/ExceptStyle.v
theories/LevelProofs.v
theories/LevelPaint.v
theories/PropLevel.v
theories/DownSpec.v
theories/DownProofs.v
theories/DownPaint.v
theories/ExceptDoc.v
theories/PropDown.v
theories/ElemSpec.v
theories/ElemProofs.v
theories/PropElem.v
theories/UnseenSpec.v
theories/PropUnseen.v
theories/TallSpec.v
theories/TallProofs.v
theories/PropTall.v
theories/LineSpec.v
theories/LineProofs.v
theories/LineStyle.v
theories/PropLine.v
theories/ApplySpec.v
theories/ApplyProofs.v
theories/PropApply.v
theories/UsedSpec.v
theories/UsedProofs.v
theories/PropUsed.v
theories/HollowSpec.v
theories/HollowProofs.v
theories/PropHollow.v
