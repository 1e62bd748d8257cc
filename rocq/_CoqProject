-Q theories Verif

theories/Base.v
theories/SerHelperModel.v
theories/SerHelperSpec.v
theories/SerHelperProofs.v
theories/SerHelperProps.v
theories/QNameModel.v
theories/QNameProofs.v
theories/QNameProps.v
theories/DeModel.v
theories/DeSpec.v
theories/DeProofs.v
theories/ElementModel.v
theories/ElementSpec.v
theories/ElementProofs.v
theories/DeProps.v
theories/ElementProps.v
theories/Utf8.v
theories/TextModel.v
theories/TextSpec.v
theories/TextProofs.v
theories/TextProps.v
theories/WrapModel.v
theories/WrapSpec.v
theories/WrapProofs.v
theories/WrapProps.v
theories/BinModel.v
theories/BinSpec.v
theories/BinProofs.v
theories/BinProps.v
theories/ListModel.v
theories/ListSpec.v
theories/ListProofs.v
theories/ListProps.v
theories/FacetModel.v
theories/FacetSpec.v
theories/FacetProofs.v
theories/FacetProps.v
theories/MapModel.v
theories/MapSpec.v
theories/MapProofs.v
theories/MapProps.v
theories/AnySimpleModel.v
theories/AnySimpleSpec.v
theories/AnySimpleProofs.v
theories/AnySimpleProps.v
theories/MixedModel.v
theories/MixedSpec.v
theories/MixedProofs.v
theories/MixedProps.v
theories/OccursModel.v
theories/OccursSpec.v
theories/OccursProofs.v
theories/OccursProps.v
theories/PathModel.v
theories/PathSpec.v
theories/PathProofs.v
theories/PathProps.v
theories/IdentModel.v
theories/MetaModel.v
theories/MetaSpec.v
theories/MetaProofs.v
theories/MetaProps.v
theories/DupModel.v
theories/DupSpec.v
theories/DupProofs.v
theories/DupProps.v
theories/OptModel.v
theories/OptSpec.v
theories/OptProofs.v
theories/OptProps.v
theories/UnionModel.v
theories/UnionSpec.v
theories/UnionProofs.v
theories/UnionProps.v
theories/FlatModel.v
theories/FlatSpec.v
theories/FlatProofs.v
theories/FlatProps.v
theories/CacheModel.v
theories/CacheSpec.v
theories/CacheProofs.v
theories/CacheProps.v
theories/ParserModel.v
theories/ParserSpec.v
theories/ParserProofs.v
theories/ParserProps.v
theories/BoxModel.v
theories/BoxSpec.v
theories/BoxProofs.v
theories/BoxProps.v
theories/NameModel.v
theories/NameSpec.v
theories/NameProofs.v
theories/NameProps.v
theories/NodeModel.v
theories/NodeSpec.v
theories/NodeProofs.v
theories/NodeProps.v
theories/ContentModel.v
theories/ContentSpec.v
theories/ContentProofs.v
theories/ContentProps.v
theories/ModModel.v
theories/ModSpec.v
theories/ModProofs.v
theories/ModProps.v
theories/PassModel.v
theories/PassSpec.v
theories/PassProofs.v
theories/PassDynProofs.v
theories/PassMixProofs.v
theories/PassProps.v
theories/PassMixProps.v
theories/GenModel.v
theories/GenSpec.v
theories/GenProofs.v
theories/GenChoiceProofs.v
theories/GenContentProofs.v
theories/GenAllProofs.v
theories/GenFrameProofs.v
theories/GenSafeProofs.v
theories/GenTextProofs.v
theories/GenProps.v
theories/DocModel.v
theories/DocSpec.v
theories/DocProofs.v
theories/DocTypeProofs.v
theories/DocProps.v
theories/DocFrameProofs.v
theories/DocFrameProps.v
theories/DocSafeProofs.v
theories/DocSafeProps.v
theories/WriteModel.v
theories/WriteSpec.v
theories/WriteProofs.v
theories/WriteProps.v
theories/WriteBackProofs.v
theories/WriteTypedProofs.v
theories/WriteNsProofs.v
theories/WriteBackProps.v
theories/CollectModel.v
theories/CollectSpec.v
theories/CollectProofs.v
theories/CollectProps.v
theories/AttrModel.v
theories/AttrSpec.v
theories/AttrProofs.v
theories/AttrWriteProofs.v
theories/AttrProps.v
theories/SimpleModel.v
theories/SimpleSpec.v
theories/SimpleTextProofs.v
theories/SimpleProofs.v
theories/SimpleInst.v
theories/SimpleProps.v
theories/DocCountSpec.v
theories/GenCountProofs.v
theories/DocCountProofs.v
theories/DocCountProps.v
theories/SimpleWriteModel.v
theories/SimpleWriteSpec.v
theories/SimpleWriteInst.v
theories/SimpleWriteProofs.v
theories/SimpleWriteInstProofs.v
theories/SimpleUniqueProofs.v
theories/SimpleWriteProps.v
theories/DefaultModel.v
theories/DefaultSpec.v
theories/DefaultInst.v
theories/DefaultProofs.v
theories/DefaultProps.v
theories/TagSpec.v
theories/TagProofs.v
theories/TagProps.v
theories/DynModel.v
theories/DynSpec.v
theories/DynProofs.v
theories/DynProps.v
theories/WriteDynModel.v
theories/WriteDynSpec.v
theories/WriteDynProofs.v
theories/WriteDynNsProofs.v
theories/WriteDynProps.v
theories/RedefModel.v
theories/RedefSpec.v
theories/RedefProofs.v
theories/RedefLoopProofs.v
theories/RedefProps.v
theories/AttrUseModel.v
theories/AttrUseSpec.v
theories/AttrUseProofs.v
theories/AttrUseProps.v
theories/SubstModel.v
theories/SubstSpec.v
theories/SubstProofs.v
theories/SubstFixProofs.v
theories/SubstMainProofs.v
theories/SubstProps.v
theories/StepModel.v
theories/StepSpec.v
theories/StepProofs.v
theories/StepProps.v
theories/HelperModel.v
theories/HelperSpec.v
theories/HelperProofs.v
theories/HelperProps.v
theories/SerdeModel.v
theories/SerdeSpec.v
theories/SerdeProofs.v
theories/SerdeProps.v
theories/SimpleContentModel.v
theories/SimpleContentSpec.v
theories/SimpleContentProofs.v
theories/SimpleContentProps.v
theories/NumberModel.v
theories/NumberSpec.v
theories/NumberProofs.v
theories/NumberProps.v
theories/AdvEnumModel.v
theories/AdvEnumSpec.v
theories/AdvEnumProofs.v
theories/AdvEnumProps.v
theories/NsConstModel.v
theories/NsConstSpec.v
theories/NsConstProofs.v
theories/NsConstProps.v
theories/TraitModel.v
theories/TraitSpec.v
theories/TraitProofs.v
theories/TraitProps.v
theories/QuadModel.v
theories/QuadSpec.v
theories/QuadProofs.v
theories/QuadProps.v
theories/TypeNameModel.v
theories/TypeNameSpec.v
theories/TypeNameProofs.v
theories/TypeNameProps.v
theories/SerdeNameModel.v
theories/SerdeNameSpec.v
theories/SerdeNameProofs.v
theories/SerdeNameProps.v
theories/ResolverModel.v
theories/ResolverSpec.v
theories/ResolverProofs.v
theories/ResolverProps.v
theories/ScopeModel.v
theories/ScopeSpec.v
theories/ScopeProofs.v
theories/ScopeProps.v
theories/ReaderModel.v
theories/ReaderSpec.v
theories/ReaderProofs.v
theories/ReaderProps.v
theories/PrinterModel.v
theories/PrinterSpec.v
theories/PrinterProofs.v
theories/PrinterProps.v
theories/OptRunModel.v
theories/OptRunSpec.v
theories/OptRunProofs.v
theories/OptRunProps.v
theories/ExprModel.v
theories/ExprSpec.v
theories/ExprProofs.v
theories/ExprProps.v
theories/RenderModel.v
theories/RenderSpec.v
theories/RenderProofs.v
theories/RenderProps.v
theories/AnnoModel.v
theories/AnnoSpec.v
theories/AnnoProofs.v
theories/AnnoProps.v
