-Q theories Verif

theories/Base.v
theories/Heap.v
theories/HeapSpec.v
theories/ListLemmas.v
theories/ForestLemmas.v
theories/HeapInv.v
theories/HeapAttach.v
theories/HeapOps.v
theories/HeapOps2.v
theories/HeapOps3.v
theories/HeapHoare.v
theories/Tree.v
theories/HeapTree.v
theories/HeapCopy.v
theories/HeapMut.v
theories/HeapExt.v
theories/HeapExt2.v
theories/HeapOrd.v
theories/HeapOrd2.v
theories/HeapRen.v
theories/HeapMove.v
theories/HeapSet.v
theories/HeapSet2.v
theories/HeapHist.v
theories/HeapHash.v
theories/History.v
theories/HeapRead.v
theories/HeapRead2.v
theories/Runs.v
theories/HeapDel.v
theories/PropsA.v
theories/PropsB.v
theories/HeapLink.v
theories/HeapLinkH.v
theories/PropsC.v
theories/PropsD.v
theories/HeapFlags.v
theories/PropsE.v
theories/PropsF.v
theories/Deep.v
theories/DeepSpec.v
theories/DeepProofs.v
theories/DeepPaths.v
theories/DeepInst.v
theories/DeepSib.v
theories/DeepSibProofs.v
theories/DeepLevels.v
theories/DeepMinus.v
theories/DeepFacts.v
theories/PropsG.v
theories/MathSet.v
theories/MathSpec.v
theories/MathFacts.v
theories/MathCard.v
theories/MathComb.v
theories/PropsH.v
theories/DataModel.v
theories/DataFacts.v
theories/PropsI.v
theories/FilterModel.v
theories/PropsJ.v
theories/RenderModel.v
theories/PropsK.v
theories/JsonModel.v
theories/JsonFacts.v
theories/PropsL.v
theories/SerModel.v
theories/SerNew.v
theories/SerLoad.v
theories/SerBuild.v
theories/SerDump.v
theories/PropsM.v
theories/LinkModel.v
theories/LinkFacts.v
theories/LinkFacts2.v
theories/LinkMerge.v
theories/LinkLoad.v
theories/LinkRun.v
theories/LinkAll.v
theories/LinkWF.v
theories/LinkSpec.v
theories/LinkDel.v
theories/PropsN.v
theories/GetModel.v
theories/PropsO.v
theories/NavModel.v
theories/PropsP.v
theories/ArithModel.v
theories/ArithFacts.v
theories/PropsQ.v
theories/PickleModel.v
theories/PropsR.v
theories/DeepOps.v
theories/PropsS.v
theories/PropsT.v
theories/PropsU.v
theories/MathStr.v
theories/MathStrFacts.v
theories/LitFacts.v
theories/PropsV.v
theories/MathBuild.v
theories/BuildSpec.v
theories/BuildFacts.v
theories/PropsW.v
theories/RosterStr.v
theories/ItemModel.v
theories/PropsX.v
theories/FileModel.v
theories/PropsY.v
theories/DataMore.v
theories/PropsZ.v
theories/HeapLocal.v
theories/PropsZA.v
theories/SubFacts.v
theories/PropsZB.v
theories/ReprModel.v
theories/ReprFacts.v
theories/PropsZC.v
theories/DotModel.v
theories/PropsZD.v
theories/MathIter.v
theories/PropsZE.v
theories/CombStr.v
theories/CombFacts.v
theories/PropsZF.v
theories/EnumModel.v
theories/PropsZG.v
theories/InitArgs.v
theories/PropsZH.v
theories/MathEmpty.v
theories/PropsZI.v
theories/ObjModel.v
theories/PropsZJ.v
theories/PropsZK.v
theories/LinkTree.v
theories/PropsZL.v
theories/LinkClear.v
theories/PropsZM.v
theories/ConvModel.v
theories/PropsZN.v
theories/SetRepr.v
theories/PropsZO.v
theories/PropsZP.v
theories/StrModel.v
theories/PropsZQ.v
theories/SetStr.v
theories/PropsZR.v
theories/LinkCover.v
theories/PropsZS.v
theories/ItemStr.v
theories/PropsZT.v
