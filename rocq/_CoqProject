-Q theories Verif
theories/Base.v
theories/HashModel.v
theories/HashSpec.v
theories/HashProofs.v
theories/HashProps.v
theories/HeapModel.v
theories/HeapSpec.v
theories/HeapInv.v
theories/HeapExec.v
theories/HeapTree.v
theories/HeapSplice.v
theories/HeapLoops.v
theories/HeapEdit.v
theories/HeapAttach.v
theories/HeapInsert.v
theories/HeapFrame.v
theories/HeapOps.v
theories/HeapAttrNode.v
theories/HeapReplace.v
theories/HeapReplaceOp.v
theories/HeapRemoveOp.v
theories/HeapDestroy.v
theories/HeapGut.v
theories/HeapUnref.v
theories/HeapCreate.v
theories/HistModel.v
theories/HistProofs.v
theories/TreeSpec.v
theories/TreeProofs.v
theories/TreeProofs2.v
theories/TreeProofs3.v
theories/TreeProofs4.v
theories/TreeWitness.v
theories/TreeProps.v
theories/RingModel.v
theories/RingSpec.v
theories/RingProofs.v
theories/RingProps.v
theories/Utf8Model.v
theories/StringModel.v
theories/StringSpec.v
theories/StringProofs.v
theories/StringProps.v
theories/CharModel.v
theories/NameModel.v
theories/NameSpec.v
theories/NameProofs.v
theories/NameProps.v
theories/EventModel.v
theories/EventSpec.v
theories/EventProofs.v
theories/EventSafe.v
theories/EventDeliver.v
theories/EventHistory.v
theories/EventProps.v
theories/UserDataModel.v
theories/UserDataSpec.v
theories/UserDataProofs.v
theories/UserDataProps.v
theories/WalkModel.v
theories/WalkSpec.v
theories/WalkProofs.v
theories/WalkLists.v
theories/WalkFinds.v
theories/WalkIds.v
theories/WalkTree.v
theories/WalkText.v
theories/WalkReach.v
theories/WalkMore.v
theories/WalkCheck.v
theories/WalkWitness.v
theories/WalkProps.v
theories/CharDataModel.v
theories/CharDataSpec.v
theories/CharDataProofs.v
theories/CharDataText.v
theories/CharDataWitness.v
theories/CharDataProps.v
theories/ContentModel.v
theories/HeapContent.v
theories/HeapClone.v
theories/ContentSpec.v
theories/ContentProofs.v
theories/ContentClone.v
theories/ContentWitness.v
theories/ContentProps.v
theories/ChildAttrSpec.v
theories/ChildAttrProofs.v
theories/ChildAttrWitness.v
theories/ChildAttrProps.v
theories/AttrModel.v
theories/AttrSpec.v
theories/AttrRing.v
theories/AttrProofs.v
theories/AttrRun.v
theories/AttrGood.v
theories/AttrMapSpec.v
theories/AttrMaps.v
theories/AttrTheorems.v
theories/AttrLaws.v
theories/AttrTypeSpec.v
theories/AttrTypes.v
theories/AttrWitness.v
theories/AttrProps.v
theories/TokenModel.v
theories/TokenSpec.v
theories/TokenProofs.v
theories/TokenWitness.v
theories/TokenProps.v
theories/RegModel.v
theories/RegSpec.v
theories/RegProofs.v
theories/RegWitness.v
theories/RegProps.v
theories/ImportModel.v
theories/HeapImport.v
theories/ImportSpec.v
theories/ImportProofs.v
theories/ImportWitness.v
theories/ImportProps.v
theories/HtmlModel.v
theories/HtmlSpec.v
theories/HtmlBase.v
theories/HtmlSelect.v
theories/HtmlTake.v
theories/HtmlRows.v
theories/HtmlTable.v
theories/HtmlInsert.v
theories/HtmlTables.v
theories/HtmlBodies.v
theories/HtmlReach.v
theories/CellModel.v
theories/CellSpec.v
theories/CellProofs.v
theories/CellReach.v
theories/HtmlWitness.v
theories/HtmlProps.v
theories/AddProofs.v
theories/AddWitness.v
theories/AddProps.v
theories/CellWitness.v
theories/CellProps.v
theories/ModModel.v
theories/ModSpec.v
theories/ModProofs.v
theories/ModProps.v
theories/NumModel.v
theories/NumSpec.v
theories/NumProofs.v
theories/NumReach.v
theories/NumBool.v
theories/NumWitness.v
theories/NumProps.v
theories/StrRefModel.v
theories/StrRefSpec.v
theories/StrRefProofs.v
theories/StrRefSteps.v
theories/StrRefCtl.v
theories/StrRefTheorems.v
theories/StrRefValues.v
theories/StrRefEffect.v
theories/StrRefReads.v
theories/StrRefWitness.v
theories/StrRefProps.v
theories/CtrlProps.v
theories/OptionModel.v
theories/OptionSpec.v
theories/OptionWords.v
theories/OptionProofs.v
theories/OptionText.v
theories/OptionIndex.v
theories/OptionWitness.v
theories/OptionProps.v
theories/LookupModel.v
theories/LookupSpec.v
theories/LookupProofs.v
theories/LookupReach.v
theories/LookupWitness.v
theories/LookupProps.v
theories/DocModel.v
theories/DocSpec.v
theories/DocProofs.v
theories/DocWitness.v
theories/DocProps.v
theories/FinModel.v
theories/FinSpec.v
theories/FinProofs.v
theories/FinReach.v
theories/FinWitness.v
theories/FinProps.v
theories/FormModel.v
theories/FormSpec.v
theories/FormProofs.v
theories/FormWitness.v
theories/FormProps.v
theories/PartModel.v
theories/PartSpec.v
theories/PartProofs.v
theories/PartWitness.v
theories/PartProps.v
theories/GrowSpec.v
theories/GrowProofs.v
theories/GrowBody.v
theories/GrowWitness.v
theories/GrowProps.v
theories/StraySpec.v
theories/StrayProofs.v
theories/StrayHtml.v
theories/StrayWitness.v
theories/StrayProps.v
