-Q theories Verif
theories/Base.v
theories/IntModel.v
theories/VectorModel.v
theories/RelationModel.v
theories/Spec.v
theories/RelSpec.v
theories/LoopLemmas.v
theories/IntProofs.v
theories/TextInt.v
theories/VectorProofs.v
theories/RelationProofs.v
theories/RelationProofs2.v
theories/RelationProofs3.v
theories/RelationProofs4.v
theories/UtilModel.v
theories/TextSpec.v
theories/UtilProofs.v
theories/UtilProofs2.v
theories/UtilProofs3.v
theories/StringsModel.v
theories/RelTextModel.v
theories/PropInt.v
theories/PropInt2.v
theories/PropVector.v
theories/PropRelation.v
theories/PropRelation2.v
theories/PropUtil.v
theories/PropStrings.v
theories/RelTextProofs.v
theories/RelTextProofs2.v
theories/RelTextProofs3.v
theories/RelTextProofs4.v
theories/PropRelText.v
theories/ExprSpec.v
theories/PropExpr.v
theories/PropExpr2.v
theories/HeapModel.v
theories/HeapObjects.v
theories/HeapSpec.v
theories/HeapLogic.v
theories/HeapProofs.v
theories/HeapProofs2.v
theories/HeapProofs3.v
theories/HeapProofs4.v
theories/HeapProofs5.v
theories/PropHeap.v
theories/PropHeap2.v
theories/PropHeap3.v
theories/PropHeap4.v
theories/EqualSpec.v
theories/HeapEqual.v
theories/HeapProofs6.v
theories/HeapProofs7.v
theories/PropHeap5.v
theories/ExtModel.v
theories/ExtSpec.v
theories/ExtProofs.v
theories/PropExt.v
theories/PropExt2.v
theories/PropExt3.v
theories/ScopModel.v
theories/ScopSpec.v
theories/PropScop.v
theories/SaveSpec.v
theories/SaveProofs.v
theories/SaveProofs2.v
theories/SaveProofs3.v
theories/SaveProofs4.v
theories/SaveProofs5.v
theories/PropScop2.v
theories/CloneModel.v
theories/CloneSpec.v
theories/PropClone.v
theories/PropScoplib.v
theories/PropBuild.v
theories/IrregModel.v
theories/PropIrreg.v
theories/ScoplibModel.v
theories/ScoplibSpec.v
theories/ScoplibProofs.v
theories/ScoplibProofs2.v
theories/ScoplibProofs3.v
theories/PropScoplib2.v
theories/ScoplibProofs4.v
theories/LayoutSpec.v
theories/PropLayout.v
theories/PayloadModel.v
theories/MatModel.v
theories/PayloadSpec.v
theories/PayloadProofs.v
theories/PayloadProofs2.v
theories/PayloadProofs3.v
theories/PayloadProofs4.v
theories/PayloadProofs5.v
theories/PayloadProofs6.v
theories/PayloadProofs7.v
theories/MatSpec.v
theories/MatProofs.v
theories/MatProofs2.v
theories/MatProofs3.v
theories/MatProofs4.v
theories/MatProofs5.v
theories/MatProofs6.v
theories/MatProofs7.v
theories/MatProofs8.v
theories/PayloadExists.v
theories/PropPayload.v
theories/FullModel.v
theories/FullSpec.v
theories/FullProofs.v
theories/FullProofs2.v
theories/FullProofs3.v
theories/FullProofs4.v
theories/FullProofs5.v
theories/FullExists.v
theories/PropFull.v
theories/PrintSpec.v
theories/PrintProofs.v
theories/PrintProofs2.v
theories/PrintProofs3.v
theories/PrintProofs4.v
theories/PropPrint.v
theories/PropMat.v
theories/DumpModel.v
theories/DumpSpec.v
theories/DumpProofs.v
theories/DumpProofs2.v
theories/DumpProofs3.v
theories/DumpProofs4.v
theories/DumpProofs5.v
theories/DumpProofs6.v
theories/DumpProofs7.v
theories/PropDump.v
theories/DumpSpec2.v
theories/PropDump2.v
theories/FileModel.v
theories/PropFile.v
theories/DoubleModel.v
theories/PropDouble.v
theories/ReadSpec.v
theories/ReadProofs.v
theories/ReadProofs2.v
theories/ReadProofs3.v
theories/PropRead.v
theories/IrregHeapModel.v
theories/IrregHeapSpec.v
theories/IrregHeapProofs.v
theories/PropIrregHeap.v
theories/ReadHeapModel.v
theories/ReadHeapSpec.v
theories/ReadHeapProofs.v
theories/ReadHeapProofs2.v
theories/ReadHeapProofs3.v
theories/ReadHeapProofs4.v
theories/ReadHeapProofs5.v
theories/ReadHeapProofs6.v
theories/ReadHeapProofs7.v
theories/PropReadHeap.v
theories/AlikeSpec.v
theories/PropEqual.v
theories/PropMalloc.v
theories/PrintHeapModel.v
theories/PrintHeapSpec.v
theories/PrintHeapProofs.v
theories/PrintHeapProofs2.v
theories/PrintHeapProofs3.v
theories/PropPrintHeap.v
theories/SaveHeapModel.v
theories/SaveHeapProofs.v
theories/SaveHeapProofs2.v
theories/PropSaveHeap.v
theories/SaveHeapSpec.v
theories/SaveHeapProofs3.v
theories/SaveHeapProofs4.v
theories/SaveHeapProofs5.v
theories/PropSaveHeap2.v
theories/ReadMatModel.v
theories/ReadMatProofs.v
theories/ReadMatProofs2.v
theories/ReadMatProofs3.v
theories/PropReadMat.v
theories/ListMatModel.v
theories/ListMatSpec.v
theories/ListMatProofs.v
theories/ListMatProofs2.v
theories/PropListMat.v
theories/UnionsMatModel.v
theories/UnionsMatSpec.v
theories/UnionsMatProofs.v
theories/PropUnionsMat.v
