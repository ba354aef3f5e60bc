-Q theories Verif

theories/PyStr.v
theories/PyStr_facts.v
theories/SafeName.v
theories/Spec_Names.v
theories/Names_proofs.v
theories/Props_Names.v
theories/PyVal.v
theories/Base64.v
theories/Restricted.v
theories/Spec_Types.v
theories/Range_proofs.v
theories/IntTypes.v
theories/Restricted_proofs.v
theories/StrTypes.v
theories/StrTypes_proofs.v
theories/Scalars_proofs.v
theories/Ints_proofs.v
theories/Enum.v
theories/Enum_proofs.v
theories/Bits.v
theories/Bits_proofs.v
theories/Types_main.v
theories/Props_Types.v
theories/Spec_Lists.v
theories/TypedList.v
theories/MemberTypes.v
theories/Member_proofs.v
theories/TypedList_proofs.v
theories/YList.v
theories/YList_proofs.v
theories/Props_Lists.v
theories/Tree.v
theories/Spec_Tree.v
theories/Tree_proofs.v
theories/Tree_frame.v
theories/Tree_main.v
theories/Tree_hist.v
theories/Tree_tell.v
theories/Tree_past.v
theories/Tree_case.v
theories/Tree_cases.v
theories/Tree_dump.v
theories/Tree_choice.v
theories/Tree_copy.v
theories/Compile.v
theories/Spec_Compile.v
theories/Compile_proofs.v
theories/Serialise.v
theories/Load_proofs.v
theories/Spec_Serialise.v
theories/Float_proofs.v
theories/Rival_proofs.v
theories/Serialise_proofs.v
theories/Json_proofs.v
theories/Order_proofs.v
theories/Unknown_proofs.v
theories/UnknownIetf_proofs.v
theories/Overwrite_proofs.v
theories/Emit_proofs.v
theories/Decimal_proofs.v
theories/Ietf_proofs.v
theories/IetfRound_proofs.v
theories/Serialise_cases.v
theories/Props_Serialise.v
theories/Options.v
theories/Spec_Options.v
theories/Options_proofs.v
theories/Select_proofs.v
theories/Props_Options.v
theories/Props_Tree.v
theories/Props_Past.v
theories/PathHelper.v
theories/Spec_Path.v
theories/PathText_proofs.v
theories/PathHelper_proofs.v
theories/PathSim_proofs.v
theories/PathInv_proofs.v
theories/Leafref_proofs.v
theories/Props_Path.v
theories/Identity.v
theories/Spec_Identity.v
theories/Identity_proofs.v
theories/IdentityDict_proofs.v
theories/Props_Identity.v
theories/Typedefs.v
theories/Spec_Typedefs.v
theories/TypedefOrder_proofs.v
theories/TypedefMap_proofs.v
theories/TypedefDepth_proofs.v
theories/TypedefDefault_proofs.v
theories/TypedefRestr_proofs.v
theories/Props_Typedefs.v
theories/Collect.v
theories/Spec_Collect.v
theories/Collect_proofs.v
theories/CollectTypes_proofs.v
theories/Props_Collect.v
theories/Xml.v
theories/Spec_Xml.v
theories/Xml_proofs.v
theories/XmlRound_proofs.v
theories/XmlDoc_proofs.v
theories/Props_Xml.v
theories/Regex.v
theories/Spec_Regex.v
theories/Regex_proofs.v
theories/RegexLeaf_proofs.v
theories/Props_Regex.v
theories/RegTree.v
theories/Spec_RegTree.v
theories/RegTree_proofs.v
theories/Props_RegTree.v
theories/PathSearch_proofs.v
theories/RegRef.v
theories/Spec_RegRef.v
theories/RegRef_proofs.v
theories/Props_RegRef.v
theories/Spec_Loading.v
theories/Loading_proofs.v
theories/LoadingJson_proofs.v
theories/LoadingIetf_proofs.v
theories/LoadingXml_proofs.v
theories/LoadingMain_proofs.v
theories/Props_Loading.v
theories/Spec_Values.v
theories/Values_proofs.v
theories/ValuesTypes_proofs.v
theories/ValuesMain_proofs.v
theories/Props_Values.v
theories/Spec_Stored.v
theories/Stored_proofs.v
theories/Spec_StoredXml.v
theories/StoredXml_proofs.v
theories/Props_Stored.v
theories/Paths.v
theories/Spec_Paths.v
theories/Paths_proofs.v
theories/Props_Paths.v
theories/Split.v
theories/Spec_Split.v
theories/Split_proofs.v
theories/Props_Split.v
theories/Annotate.v
theories/Spec_Annotate.v
theories/Annotate_proofs.v
theories/Props_Annotate.v
theories/File.v
theories/Spec_File.v
theories/File_proofs.v
theories/Props_File.v
theories/Assign.v
theories/Spec_Assign.v
theories/Assign_proofs.v
theories/Props_Assign.v
theories/Defaults.v
theories/Spec_Defaults.v
theories/Defaults_proofs.v
theories/Props_Defaults.v
theories/Spec_Lexical.v
theories/Lexical_proofs.v
theories/Props_Lexical.v
theories/Spec_Shape.v
theories/Shape_proofs.v
theories/Props_Shape.v
theories/Spec_Accept.v
theories/AcceptBase_proofs.v
theories/Accept_proofs.v
theories/Props_Accept.v
theories/Spec_Unions.v
theories/Unions_proofs.v
theories/Props_Unions.v
theories/Current.v
theories/Spec_Current.v
theories/Current_proofs.v
theories/Props_Current.v
theories/Spec_Brackets.v
theories/Brackets_proofs.v
theories/Props_Brackets.v
theories/Spec_AcceptJson.v
theories/AcceptJson_proofs.v
theories/Props_AcceptJson.v
theories/Spec_AcceptXml.v
theories/AcceptXml_proofs.v
theories/Props_AcceptXml.v
theories/Spec_AcceptChoice.v
theories/AcceptChoice_proofs.v
theories/Props_AcceptChoice.v
theories/Spec_Merge.v
theories/Merge_proofs.v
theories/MergeIetf_proofs.v
theories/MergeStored_proofs.v
theories/MergeXml_proofs.v
theories/Props_Merge.v
theories/RegRoot.v
theories/Spec_RegRoot.v
theories/RegRoot_proofs.v
theories/RegList_proofs.v
theories/RegMembers_proofs.v
theories/Props_RegRoot.v
theories/Spec_Native.v
theories/Native_proofs.v
theories/Props_Native.v
theories/Spec_DecRange.v
theories/DecRange_proofs.v
theories/Props_DecRange.v
theories/Extensions.v
theories/Spec_Extensions.v
theories/Extensions_proofs.v
theories/Props_Extensions.v
theories/Docs.v
theories/Spec_Docs.v
theories/Docs_proofs.v
theories/Props_Docs.v
theories/Spec_Escapes.v
theories/Escapes_proofs.v
theories/Props_Escapes.v
theories/Spec_ShapeXml.v
theories/ShapeXml_proofs.v
theories/Props_ShapeXml.v
theories/Modules.v
theories/Spec_Modules.v
theories/Modules_proofs.v
theories/Props_Modules.v
theories/Spec_Keysep.v
theories/Keysep_proofs.v
theories/Props_Keysep.v
theories/Parts.v
theories/Spec_Parts.v
theories/Parts_proofs.v
theories/PartsJson_proofs.v
theories/Props_Parts.v
theories/Literals.v
theories/Spec_Literals.v
theories/Literals_proofs.v
theories/Props_Literals.v
theories/Spec_XmlText.v
theories/XmlText_proofs.v
theories/Props_XmlText.v
theories/Spec_EnumNumbers.v
theories/EnumNumbers_proofs.v
theories/Props_EnumNumbers.v
theories/Spec_ChoiceConfig.v
theories/ChoiceConfig_proofs.v
theories/Props_ChoiceConfig.v
theories/Spec_SingleValues.v
theories/SingleValues_proofs.v
theories/Props_SingleValues.v
theories/Spec_DefaultEscapes.v
theories/DefaultEscapes_proofs.v
theories/Props_DefaultEscapes.v
theories/Spec_BitsOrder.v
theories/BitsOrder_proofs.v
theories/Props_BitsOrder.v
theories/ListLiterals.v
theories/Spec_ListLiterals.v
theories/ListLiterals_proofs.v
theories/Props_ListLiterals.v
theories/BitsSets.v
theories/Spec_BitsSets.v
theories/BitsSets_proofs.v
theories/Props_BitsSets.v
theories/AddAssign.v
theories/AddAssign_proofs.v
theories/Props_AddAssign.v
theories/Spec_Underscores.v
theories/Underscores_proofs.v
theories/Props_Underscores.v
