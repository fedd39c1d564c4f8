-Q theories Verif
theories/Base.v
theories/Utf8Model.v
theories/Utf8Spec.v
theories/Utf8Proofs.v
theories/Utf8DfaProofs.v
theories/Utf8Props.v
theories/Base64Model.v
theories/Base64Spec.v
theories/Base64Proofs.v
theories/Base64Props.v
theories/IntModel.v
theories/IntSpec.v
theories/IntProofs.v
theories/IntProps.v
theories/SeqModel.v
theories/SeqSpec.v
theories/SeqProofs.v
theories/SeqProps.v
theories/TextModel.v
theories/TextSpec.v
theories/TextProofs.v
theories/TextProps.v
theories/FmtModel.v
theories/FmtSpec.v
theories/FmtProofs.v
theories/FmtProps.v
theories/PdqModel.v
theories/PdqSpec.v
theories/PdqProofs.v
theories/PdqProps.v
theories/HeapModel.v
theories/HeapSpec.v
theories/HeapProofs.v
theories/HeapProps.v
theories/MsgModel.v
theories/MsgSpec.v
theories/MsgProofs.v
theories/MsgRound.v
theories/MsgSafe.v
theories/MsgPrefix.v
theories/MsgProps.v
theories/ListAux.v
theories/PmapModel.v
theories/PmapSpec.v
theories/PmapProofs.v
theories/PmapRun.v
theories/PmapProps.v
theories/Fair.v
theories/PoolModel.v
theories/PoolProofs.v
theories/PoolProps.v
theories/QueueModel.v
theories/QueueSpec.v
theories/MpmcProofs.v
theories/SpscProofs.v
theories/QueueProps.v
theories/GraphModel.v
theories/GraphSpec.v
theories/NameProofs.v
theories/GraphProofs.v
theories/SessionProofs.v
theories/GraphProps.v
theories/HashModel.v
theories/HashArith.v
theories/HashTable.v
theories/HashOps.v
theories/HashSpec.v
theories/HashProofs.v
theories/HashSetProofs.v
theories/HashFlood.v
theories/HashProps.v
theories/KeyModel.v
theories/KeySpec.v
theories/KeyProofs.v
theories/KeyProps.v
theories/FloatAux.v
theories/FoldModel.v
theories/FoldSpec.v
theories/FoldProofs.v
theories/FoldProps.v
theories/CowModel.v
theories/CowSpec.v
theories/CowProofs.v
theories/CowProps.v
theories/ScriptAst.v
theories/ScriptSpec.v
theories/ScriptModel.v
theories/ScriptProofs.v
theories/ScriptSim.v
theories/ScriptProps.v
theories/LiveModel.v
theories/LiveSpec.v
theories/LiveProofs.v
theories/LiveProps.v
theories/NumModel.v
theories/NumSpec.v
theories/NumProofs.v
theories/NumProps.v
theories/StrSpec.v
theories/StrModel.v
theories/StrProofs.v
theories/StrProps.v
theories/NdSpec.v
theories/NdModel.v
theories/NdAux.v
theories/NdMem.v
theories/NdInv.v
theories/NdProofs.v
theories/NdOps.v
theories/NdFill.v
theories/NdShow.v
theories/NdSet.v
theories/NdJoin.v
theories/NdRun.v
theories/NdProps.v
theories/TrModel.v
theories/TrSpec.v
theories/TrRing.v
theories/TrFree.v
theories/TrCells.v
theories/TrRoom.v
theories/TrPlace.v
theories/TrTree.v
theories/TrMove.v
theories/TrLoop.v
theories/TrFollow.v
theories/TrSearch.v
theories/TrRestore.v
theories/TrProofs.v
theories/TrProps.v
theories/FrModel.v
theories/FrSpec.v
theories/FrProofs.v
theories/FrText.v
theories/FrBad.v
theories/FrProps.v
theories/PkModel.v
theories/PkSpec.v
theories/PkText.v
theories/PkProofs.v
theories/PkProps.v
theories/RnModel.v
theories/RnSpec.v
theories/RnProofs.v
theories/RnProps.v
theories/OpModel.v
theories/OpSpec.v
theories/OpProofs.v
theories/OpProps.v
theories/ItAst.v
theories/ItModel.v
theories/ItSpec.v
theories/ItProofs.v
theories/ItProps.v
theories/TxModel.v
theories/TxSpec.v
theories/TxProofs.v
theories/TxProps.v
theories/VcModel.v
theories/VcSpec.v
theories/VcProofs.v
theories/VcProps.v
theories/GnSpec.v
theories/GnModel.v
theories/GnProofs.v
theories/GnProps.v
theories/HfSpec.v
theories/HfModel.v
theories/HfProofs.v
theories/HfProps.v
theories/FdSpec.v
theories/FdModel.v
theories/FdProofs.v
theories/FdProps.v
theories/SbSpec.v
theories/SbModel.v
theories/SbProofs.v
theories/SbProps.v
theories/RxSpec.v
theories/RxModel.v
theories/RxProofs.v
theories/RxProps.v
theories/KbSpec.v
theories/KbModel.v
theories/KbProofs.v
theories/KbProps.v
theories/NfSpec.v
theories/NfModel.v
theories/NfProofs.v
theories/NfProps.v
theories/NcSpec.v
theories/NcModel.v
theories/NcProofs.v
theories/NcProps.v
theories/LcSpec.v
theories/LcModel.v
theories/LcProofs.v
theories/LcProps.v
