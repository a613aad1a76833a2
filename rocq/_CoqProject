-Q theories Verif
theories/AllocModel.v
theories/AllocProof.v
theories/AllocProps.v
theories/ArithModel.v
theories/ArithProof.v
theories/ArithProps.v
theories/ArithSpec.v
theories/ArrFacts.v
theories/ArrProps.v
theories/ArrSpec.v
theories/Base.v
theories/BlasModel.v
theories/BlasProof.v
theories/BlasProps.v
theories/BtModel.v
theories/BtProps.v
theories/BtSpec.v
theories/CdotModel.v
theories/CdotProps.v
theories/CommaProps.v
theories/CplxModel.v
theories/CplxProps.v
theories/CurlModel.v
theories/CurlProps.v
theories/CycleProof.v
theories/DenseProps.v
theories/DftModel.v
theories/DftProps.v
theories/DftSpec.v
theories/EqProof.v
theories/FunProof.v
theories/GedModel.v
theories/GedProof.v
theories/GedProps.v
theories/GedSpec.v
theories/GedTotal.v
theories/GeoModel.v
theories/GeoProof.v
theories/GeoProps.v
theories/GeoSpec.v
theories/GraphModel.v
theories/GraphProps.v
theories/IndModel.v
theories/IndProps.v
theories/IniModel.v
theories/IniProof.v
theories/IniProps.v
theories/IniSpec.v
theories/InitProps.v
theories/JsonModel.v
theories/JsonProof.v
theories/JsonProps.v
theories/JsonRound.v
theories/JsonSpec.v
theories/LapackModel.v
theories/LapackProps.v
theories/LineProof.v
theories/MapProof.v
theories/MatProof.v
theories/MatProps.v
theories/MemArithProps.v
theories/MemArithSpec.v
theories/MemArr.v
theories/MemArrays.v
theories/MemCall.v
theories/MemComma.v
theories/MemCopy.v
theories/MemDense.v
theories/MemDeref.v
theories/MemElem.v
theories/MemEntry.v
theories/MemEntryProps.v
theories/MemEq.v
theories/MemFind.v
theories/MemFits.v
theories/MemFun.v
theories/MemInit.v
theories/MemKey.v
theories/MemList.v
theories/MemLook.v
theories/MemMakeProps.v
theories/MemMakeSpec.v
theories/MemMap.v
theories/MemMapProps.v
theories/MemMapSpec.v
theories/MemMaps.v
theories/MemMeth.v
theories/MemModel.v
theories/MemMore.v
theories/MemNest.v
theories/MemNestProps.v
theories/MemOp.v
theories/MemOps.v
theories/MemProof.v
theories/MemProps.v
theories/MemRun.v
theories/MemSafe.v
theories/MemScalar.v
theories/MemSelf.v
theories/MemSpec.v
theories/MemText.v
theories/MemThrow.v
theories/MemTop.v
theories/MemTriple.v
theories/MemViewProps.v
theories/MemViewSpec.v
theories/MklModel.v
theories/MklProps.v
theories/ModuleModel.v
theories/ModuleProps.v
theories/NaryModel.v
theories/NaryProps.v
theories/NumModel.v
theories/OpProps.v
theories/OptModel.v
theories/OptProof.v
theories/OptProps.v
theories/OptSpec.v
theories/PathModel.v
theories/PathProof.v
theories/PathProps.v
theories/PathSpec.v
theories/PolyProof.v
theories/QwtModel.v
theories/QwtProps.v
theories/RangeModel.v
theories/RangeProps.v
theories/RedModel.v
theories/RedProps.v
theories/RefTests.v
theories/RootsModel.v
theories/RootsProof.v
theories/RootsProps.v
theories/RootsSpec.v
theories/ScalarProps.v
theories/SeqProps.v
theories/SeqSpec.v
theories/SfModel.v
theories/SfProps.v
theories/ShowModel.v
theories/ShowProps.v
theories/ShowSpec.v
theories/SndModel.v
theories/SndProps.v
theories/StrModel.v
theories/StrProof.v
theories/StrProps.v
theories/StrSpec.v
theories/StreamModel.v
theories/StreamProps.v
theories/TextNumProps.v
theories/TypeModel.v
theories/TypeProps.v
theories/Utf8Proof.v
theories/ValModel.v
theories/ValProof.v
theories/ValProps.v
theories/ValSpec.v
theories/XmlModel.v
theories/XmlProof.v
theories/XmlProps.v
theories/XmlSpec.v
