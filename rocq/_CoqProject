-Q theories Verif
theories/Base.v
theories/BaseFacts.v
theories/Io_Model.v
theories/Io_Spec.v
theories/Io_Proofs.v
theories/IoRead_Proofs.v
theories/Io_PropLemmas.v
theories/IoOverrun_Proofs.v
theories/IoExact_Proofs.v
theories/Io_Props.v
theories/IoIter_Model.v
theories/IoIter_Proofs.v
theories/IoIter_Props.v
theories/IoView_Model.v
theories/IoView_Spec.v
theories/IoView_Proofs.v
theories/IoView_PropLemmas.v
theories/IoView_Props.v
theories/IoShared_Proofs.v
theories/IoShared_Props.v
theories/IoLayout_Spec.v
theories/IoLayout_Proofs.v
theories/IoLayout_Props.v
theories/File_Model.v
theories/File_Spec.v
theories/File_Proofs.v
theories/File_Props.v
theories/FileProc_Model.v
theories/FileProc_Spec.v
theories/FileProc_Proofs.v
theories/FileProc_Props.v
theories/IoPort_Spec.v
theories/IoPort_Proofs.v
theories/IoPort_Props.v
theories/Hex_Model.v
theories/Hex_Spec.v
theories/Hex_Proofs.v
theories/Hex_Props.v
theories/Uuid_Model.v
theories/Uuid_Spec.v
theories/Uuid_Proofs.v
theories/UuidParse_Proofs.v
theories/UuidMake_Proofs.v
theories/Uuid_PropLemmas.v
theories/Uuid_Props.v
theories/String_Model.v
theories/String_Spec.v
theories/String_Proofs.v
theories/String_Props.v
theories/Frag_Model.v
theories/Frag_Spec.v
theories/Frag_Proofs.v
theories/FragOps_Proofs.v
theories/Frag_PropLemmas.v
theories/Frag_Props.v
theories/FragGap_Spec.v
theories/FragGap_Proofs.v
theories/FragGap_Props.v
theories/FragKeep_Model.v
theories/FragKeep_Spec.v
theories/FragKeep_Proofs.v
theories/FragKeep_Props.v
theories/FragSearch_Proofs.v
theories/FragSearch_Props.v
theories/FragMake_Model.v
theories/FragMake_Spec.v
theories/FragMake_Proofs.v
theories/FragMake_Props.v
theories/Iter_Model.v
theories/Sv_Model.v
theories/Lookup_Model.v
theories/Ident_Model.v
theories/Coll_Spec.v
theories/Sv_Proofs.v
theories/SvLife_Proofs.v
theories/Ident_Proofs.v
theories/Coll_PropLemmas.v
theories/Coll_Props.v
theories/Result_Model.v
theories/Scope_Model.v
theories/Index_Model.v
theories/Core_Spec.v
theories/Result_Proofs.v
theories/Scope_Proofs.v
theories/ScopeOnce_Proofs.v
theories/ScopeAssign_Proofs.v
theories/Index_Proofs.v
theories/Core_Props.v
theories/Range_Model.v
theories/Range_Spec.v
theories/Range_Proofs.v
theories/MinMax_Proofs.v
theories/IntRange_Proofs.v
theories/Float_Model.v
theories/Float_Spec.v
theories/Float_Proofs.v
theories/Interp_Proofs.v
theories/FloatMid_Proofs.v
theories/Frac_Proofs.v
theories/InterpWide_Proofs.v
theories/RangeEdge_Proofs.v
theories/Maths_PropLemmas.v
theories/Maths_Props.v
theories/Point_Model.v
theories/Print_Model.v
theories/Geo_Spec.v
theories/Point_Proofs.v
theories/Print_Proofs.v
theories/Geo_Props.v
theories/UuidText_Spec.v
theories/UuidText_Proofs.v
theories/UuidText_Props.v
theories/IdentMove_Model.v
theories/IdentMove_Spec.v
theories/IdentMove_Proofs.v
theories/IdentMove_Props.v
theories/IdentRef_Model.v
theories/IdentRef_Spec.v
theories/IdentRef_Proofs.v
theories/IdentRef_Props.v
theories/StreamFail_Model.v
theories/StreamFail_Spec.v
theories/StreamFail_Proofs.v
theories/StreamFail_Props.v
theories/Single_Model.v
theories/Single_Spec.v
theories/Single_Proofs.v
theories/Single_Props.v
theories/HexText_Spec.v
theories/HexText_Proofs.v
theories/HexText_Props.v
theories/RangeEq_Proofs.v
theories/RangeEq_Props.v
theories/Long_Model.v
theories/Long_Spec.v
theories/Long_Proofs.v
theories/Long_Props.v
theories/SvIter_Model.v
theories/SvIter_Spec.v
theories/SvIter_Proofs.v
theories/SvIter_Props.v
theories/Builds_Spec.v
theories/Builds_Proofs.v
theories/Builds_Props.v
theories/IdentIter_Model.v
theories/IdentIter_Spec.v
theories/IdentIter_Proofs.v
theories/IdentIter_Props.v
theories/UuidObj_Model.v
theories/UuidObj_Spec.v
theories/UuidObj_Proofs.v
theories/UuidObj_Props.v
theories/UuidHash_Proofs.v
theories/UuidHash_Props.v
theories/UuidGen_Model.v
theories/UuidGen_Spec.v
theories/UuidGen_Proofs.v
theories/UuidBits_Proofs.v
theories/UuidSeed_Proofs.v
theories/UuidGen_Props.v
theories/IoAlias_Model.v
theories/IoAlias_Spec.v
theories/IoAlias_Proofs.v
theories/IoAlias_Props.v
theories/IoBool_Model.v
theories/IoBool_Proofs.v
theories/IoBool_Props.v
theories/IoGrow_Model.v
theories/IoGrow_Spec.v
theories/IoGrow_Proofs.v
theories/IoGrow_Props.v
theories/IoThread_Model.v
theories/IoThread_Spec.v
theories/IoThread_Proofs.v
theories/IoThread_Props.v
theories/SplitInto_Model.v
theories/SplitInto_Spec.v
theories/SplitInto_Proofs.v
theories/SplitInto_Props.v
theories/FileConc_Model.v
theories/FileConc_Spec.v
theories/FileConc_Proofs.v
theories/FileConc_Props.v
theories/TextLife_Model.v
theories/TextLife_Spec.v
theories/TextLife_Proofs.v
theories/TextLife_Props.v
theories/Log_Spec.v
theories/Log_Proofs.v
theories/Log_Props.v
theories/IoViewThread_Model.v
theories/IoViewThread_Spec.v
theories/IoViewThread_Proofs.v
theories/IoViewThread_Props.v
theories/UuidPlace_Model.v
theories/UuidPlace_Spec.v
theories/UuidPlace_Proofs.v
theories/UuidPlace_Props.v
theories/HexNumber_Spec.v
theories/HexNumber_Proofs.v
theories/HexNumber_Props.v
theories/Msg_Spec.v
theories/Msg_Proofs.v
theories/Msg_Props.v
theories/ListText_Spec.v
theories/ListText_Proofs.v
theories/ListText_Props.v
theories/Group_Spec.v
theories/Group_Proofs.v
theories/Group_Props.v
theories/CollSave_Spec.v
theories/CollSave_Proofs.v
theories/CollSave_Props.v
theories/FragLoop_Spec.v
theories/FragLoop_Proofs.v
theories/FragLoop_Props.v
theories/Rollback_Spec.v
theories/Rollback_Proofs.v
theories/Rollback_Props.v
theories/Chunk_Spec.v
theories/Chunk_Proofs.v
theories/Chunk_Props.v
theories/Merge_Spec.v
theories/Merge_Proofs.v
theories/Merge_Props.v
theories/Grow_Spec.v
theories/Grow_Proofs.v
theories/Grow_Props.v
theories/ClampAll_Spec.v
theories/ClampAll_Proofs.v
theories/ClampAll_Props.v
theories/Walk_Spec.v
theories/Walk_Proofs.v
theories/Walk_Props.v
theories/Convert_Spec.v
theories/Convert_Proofs.v
theories/Convert_Props.v
theories/Bisect_Spec.v
theories/Bisect_Proofs.v
theories/Bisect_Props.v
theories/Table_Spec.v
theories/Table_Proofs.v
theories/Table_Props.v
theories/HexData_Spec.v
theories/HexData_Proofs.v
theories/HexData_Props.v
theories/LookupHist_Spec.v
theories/LookupHist_Proofs.v
theories/LookupHist_Props.v
theories/IndexHist_Spec.v
theories/IndexHist_Proofs.v
theories/IndexHist_Props.v
theories/ResultChain_Spec.v
theories/ResultChain_Proofs.v
theories/ResultChain_Props.v
theories/Algo_Spec.v
theories/Algo_Proofs.v
theories/Algo_Props.v
theories/Halve_Spec.v
theories/Halve_Proofs.v
theories/Halve_Props.v
theories/Sort_Spec.v
theories/Sort_Proofs.v
theories/Sort_Props.v
