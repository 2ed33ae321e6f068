-Q theories Verif
theories/BytesModel.v
theories/BytesSpec.v
theories/BytesEnc.v
theories/BytesInv.v
theories/BytesOps.v
theories/BytesMeth.v
theories/BytesRefine.v
theories/BytesFacts.v
theories/BytesProps.v
theories/CStrModel.v
theories/CStrSpec.v
theories/CStrProofs.v
theories/CStrOps.v
theories/CStrRefine.v
theories/CStrProps.v
theories/LayoutModel.v
theories/LayoutSpec.v
theories/LayoutProofs.v
theories/LayoutProps.v
theories/EnumModel.v
theories/EnumSpec.v
theories/EnumProofs.v
theories/EnumProps.v
theories/HeaderModel.v
theories/HeaderSpec.v
theories/HeaderProofs.v
theories/HeaderRead.v
theories/HeaderNames.v
theories/HeaderProps.v
theories/NameModel.v
theories/NameSpec.v
theories/NameProofs.v
theories/NameProps.v
theories/DocModel.v
theories/DocSpec.v
theories/DocProofs.v
theories/DocProps.v
theories/ExportModel.v
theories/ExportSpec.v
theories/ExportProofs.v
theories/ExportProps.v
theories/DynModel.v
theories/DynSpec.v
theories/DynProofs.v
theories/DynProps.v
theories/OwnModel.v
theories/OwnSpec.v
theories/OwnProofs.v
theories/OwnSim.v
theories/OwnLog.v
theories/OwnProps.v
theories/FutModel.v
theories/FutSpec.v
theories/FutProofs.v
theories/FutMore.v
theories/FutProps.v
theories/JsNumModel.v
theories/JsNumSpec.v
theories/JsNumProofs.v
theories/JsNumProps.v
theories/NapiModel.v
theories/NapiSpec.v
theories/NapiProofs.v
theories/NapiProps.v
theories/JsCallModel.v
theories/JsCallSpec.v
theories/JsCallProofs.v
theories/JsCallProps.v
theories/SliceProps.v
theories/VecModel.v
theories/VecSpec.v
theories/VecProofs.v
theories/VecRefine.v
theories/VecProps.v
theories/ConstModel.v
theories/ConstSpec.v
theories/ConstProofs.v
theories/ConstProps.v
theories/FrameModel.v
theories/FrameSpec.v
theories/FrameProofs.v
theories/FrameProps.v
theories/JsFnModel.v
theories/JsFnSpec.v
theories/JsFnProofs.v
theories/JsFnProps.v
theories/NapiKindProps.v
theories/JsLifeModel.v
theories/JsLifeSpec.v
theories/JsLifeProofs.v
theories/JsLifeProps.v
theories/WasmMemModel.v
theories/WasmMemSpec.v
theories/WasmMemProofs.v
theories/WasmMemProps.v
theories/BytesInline.v
theories/BytesInlineProps.v
theories/SerdeModel.v
theories/SerdeSpec.v
theories/SerdeProofs.v
theories/SerdeProps.v
theories/DeriveModel.v
theories/DeriveSpec.v
theories/DeriveProofs.v
theories/DeriveProps.v
theories/FptrModel.v
theories/FptrSpec.v
theories/FptrProofs.v
theories/FptrProps.v
theories/RemapModel.v
theories/RemapSpec.v
theories/RemapProofs.v
theories/RemapProps.v
theories/CsModel.v
theories/CsSpec.v
theories/CsProofs.v
theories/CsProps.v
theories/VtModel.v
theories/VtSpec.v
theories/VtProofs.v
theories/VtProps.v
theories/DocXmlSpec.v
theories/DocXmlProps.v
theories/MarkModel.v
theories/MarkSpec.v
theories/MarkProofs.v
theories/MarkProps.v
theories/ScopeModel.v
theories/ScopeSpec.v
theories/ScopeProofs.v
theories/ScopeProps.v
theories/BytesStabProps.v
theories/TextModel.v
theories/TextGolden.v
theories/TextSpec.v
theories/TextLex.v
theories/TextProofs.v
theories/TextProps.v
theories/TextCsSpec.v
theories/TextCs.v
theories/TextCsProps.v
theories/CompSpec.v
theories/CompProofs.v
theories/CompRun.v
theories/CompStep.v
theories/CompWhole.v
theories/CompAbi.v
theories/CompCheck.v
theories/CompProps.v
theories/BuildModel.v
theories/BuildSpec.v
theories/BuildProofs.v
theories/BuildProps.v
theories/StabModel.v
theories/StabSpec.v
theories/StabProofs.v
theories/StabProps.v
theories/TokioModel.v
theories/TokioSpec.v
theories/TokioProofs.v
theories/TokioProps.v
theories/CmpModel.v
theories/CmpSpec.v
theories/CmpProps.v
theories/LibcModel.v
theories/LibcSpec.v
theories/LibcProps.v
theories/OptModel.v
theories/OptSpec.v
theories/OptProps.v
theories/DtorModel.v
theories/DtorSpec.v
theories/DtorProps.v
