-Q theories Verif
theories/CStr.v
theories/CStrFacts.v
theories/HSListModel.v
theories/HSListFacts.v
theories/SetModel.v
theories/SetFacts.v
theories/RTreeModel.v
theories/RTreeFacts.v
theories/RTreeFacts2.v
theories/RTreeFacts3.v
theories/RTreeFacts4.v
theories/ObjListModel.v
theories/ObjListFacts.v
theories/SpecA.v
theories/PropertiesA.v
theories/MRTreeModel.v
theories/MRTreeFacts.v
theories/MRTreeFacts2.v
theories/MRTreeFacts3.v
theories/SpecB.v
theories/PropertiesB.v
theories/ObjModel.v
theories/ObjFacts.v
theories/ObjFacts2.v
theories/SpecC.v
theories/PropertiesC.v
theories/DocModel.v
theories/DocFacts.v
theories/DocFacts2.v
theories/SpecD.v
theories/SpecD2.v
theories/PropertiesD.v
theories/Dec.v
theories/StrModel.v
theories/StrFacts.v
theories/LogModel.v
theories/ValidateModel.v
theories/ValidateFacts.v
theories/SpecE.v
theories/PropertiesE.v
theories/ParseModel.v
theories/ParseFacts.v
theories/SpecF.v
theories/SpecF2.v
theories/SpecF3.v
theories/SpecF4.v
theories/PropertiesF.v
theories/XmlModel.v
theories/XmlFacts.v
theories/SpecG.v
theories/SpecG2.v
theories/SpecG3.v
theories/SpecG4.v
theories/SpecG5.v
theories/SpecG6.v
theories/SpecG7.v
theories/PropertiesG.v
theories/PropertiesG2.v
theories/RefcModel.v
theories/RefcFacts.v
theories/SpecH.v
theories/SpecH2.v
theories/PropertiesH.v
theories/PySeqModel.v
theories/PySeqFacts.v
theories/PySeqFacts2.v
theories/SpecI.v
theories/SpecI2.v
theories/PropertiesI.v
theories/CrcModel.v
theories/CrcFacts.v
theories/PyObjModel.v
theories/PyUnionFacts.v
theories/SpecJ.v
theories/SpecJ2.v
theories/PropertiesJ.v
theories/PyDictModel.v
theories/PyDictFacts.v
theories/PyDictFacts2.v
theories/Utf8Facts.v
theories/PropertiesK.v
theories/PyDocModel.v
theories/PyDocFacts.v
theories/PyDocFacts2.v
theories/PyDocFacts3.v
theories/PyDocFacts4.v
theories/PyDocFacts5.v
theories/PyDocFacts6.v
theories/PyDocFacts7.v
theories/PropertiesL.v
theories/CountMem.v
theories/CountMemFacts.v
theories/PyAttrModel.v
theories/PyAttrSpec.v
theories/PyAttrFacts1.v
theories/PyAttrFacts2.v
theories/PyAttrFacts3.v
theories/PyAttrFacts4.v
theories/PyAttrFacts5.v
theories/PyAttrFacts6.v
theories/PropertiesM.v
theories/OwnModel.v
theories/OwnFacts.v
theories/OwnFacts2.v
theories/OwnFacts3.v
theories/OwnFacts4.v
theories/OwnFacts5.v
theories/PropertiesN.v
theories/BRadixModel.v
theories/BRadixFacts.v
theories/BRadixFacts2.v
theories/BRadixFacts3.v
theories/PropertiesO.v
theories/TextModel.v
theories/TextFacts.v
theories/TextFacts2.v
theories/TextFacts3.v
theories/TextFacts4.v
theories/TextFacts5.v
theories/TextFacts6.v
theories/TextFacts7.v
theories/PropertiesP.v
theories/MDictModel.v
theories/MDictFacts.v
theories/MDictSpec.v
theories/MDictFacts2.v
theories/MDictFacts3.v
theories/MDictFacts4.v
theories/SpecQ.v
theories/PropertiesQ.v
theories/SpecR.v
theories/SpecR2.v
theories/SpecR3.v
theories/SpecR4.v
theories/SpecR5.v
theories/SpecR6.v
theories/PropertiesR.v
theories/RTreeTab.v
theories/RTreeTab2.v
theories/RTreeTab3.v
theories/RTreeTab4.v
theories/RTreeTab5.v
theories/RTreeTab6.v
theories/PropertiesS.v
theories/SpecT.v
theories/PropertiesT.v
theories/SpecU.v
theories/PropertiesU.v
theories/SpecV.v
theories/PropertiesV.v
theories/PyItemModel.v
theories/SpecW.v
theories/SpecW2.v
theories/PropertiesW.v
theories/ObjMemModel.v
theories/ObjMemFacts1.v
theories/ObjMemFacts2.v
theories/ObjMemFacts3.v
theories/ObjMemFacts4.v
theories/ObjMemFacts5.v
theories/ObjMemFacts6.v
theories/ObjMemFacts7.v
theories/ObjMemFacts8.v
theories/ObjMemFacts9.v
theories/ObjMemFactsA.v
theories/ObjMemFactsB.v
theories/ObjMemFactsE.v
theories/ObjMemFactsF.v
theories/SpecX.v
theories/ObjMemFactsC.v
theories/PropertiesX.v
theories/SpecX2.v
theories/ObjMemFactsD.v
theories/PropertiesX2.v
theories/ObjMemSum.v
theories/SpecY.v
theories/ObjMemSumFacts1.v
theories/ObjMemSumFacts2.v
theories/PropertiesY.v
theories/HSUniqModel.v
theories/HSUniqFacts.v
theories/SpecZ.v
theories/PropertiesZ.v
theories/PyIterModel.v
theories/PyIterFacts.v
theories/PropertiesZ2.v
theories/PyDictIterModel.v
theories/PyDictIterFacts.v
theories/PropertiesZ3.v
theories/PySeqCmpModel.v
theories/PySeqCmpFacts.v
theories/PropertiesZ4.v
theories/PySeqRefModel.v
theories/PySeqRefFacts.v
theories/PropertiesZ5.v
