-Q theories Verif
theories/PyBase.v
theories/PyText.v
theories/FormatModel.v
theories/MatrixModel.v
theories/PathModel.v
theories/NumScan.v
theories/PathTextModel.v
theories/FormatSpec.v
theories/FormatProofs.v
theories/MatrixSpec.v
theories/PyList.v
theories/TransformModel.v
theories/TransformSpec.v
theories/PathTextSpec.v
theories/NumScanProofs.v
theories/MatrixProofs.v
theories/MatrixProofs2.v
theories/TransformProofs.v
theories/TransformTextProofs.v
theories/PathTextProofs.v
theories/PathTextProps.v
theories/BuilderModel.v
theories/BuilderSpec.v
theories/BuilderProps.v
theories/ForestModel.v
theories/ForestSpec.v
theories/ForestProofs.v
theories/ForestProofs2.v
theories/ForestProofs3.v
theories/ForestProofs4.v
theories/ForestProofs5.v
theories/ForestProofs6.v
theories/ForestProofs7.v
theories/OuterModel.v
theories/OuterSpec.v
theories/OuterProofs.v
theories/OuterProps.v
theories/PySplit.v
theories/PyCase.v
theories/PyStrip.v
theories/PyDict.v
theories/CssTypeModel.v
theories/CssUnitModel.v
theories/LengthModel.v
theories/LengthSpec.v
theories/LengthProofs.v
theories/ScreenModel.v
theories/MediaQueryModel.v
theories/MediaQuerySpec.v
theories/PyRegex.v
theories/MqParseModel.v
theories/MqParseSpec.v
theories/PyRegexProofs.v
theories/MediaQueryProofs.v
theories/MediaQueryProps.v
theories/MqParseProofs.v
theories/MqParseProofs2.v
theories/MqParseProofs3.v
theories/MqParseProofs4.v
theories/MqParseProofs5.v
theories/MqParseProps.v
theories/MqlModel.v
theories/MqlSpec.v
theories/LengthProps.v
theories/MqlProofs.v
theories/MqlProps.v
theories/UtilsModel.v
theories/UtilsSpec.v
theories/UtilsProofs.v
theories/UtilsProps.v
theories/AttrModel.v
theories/AttrSpec.v
theories/AttrProofs.v
theories/AttrProofs2.v
theories/AttrProps.v
theories/NameModel.v
theories/NameSpec.v
theories/NameProofs.v
theories/NameProps.v
theories/RectModel.v
theories/LayoutModel.v
theories/SegModel.v
theories/SegSpec.v
theories/SegProofs.v
theories/SegProofs2.v
theories/SegProps.v
theories/FtModel.v
theories/FtSpec.v
theories/FtProofs.v
theories/FtProofs2.v
theories/FtProps.v
theories/PyInt.v
theories/DatasetModel.v
theories/FontTextModel.v
theories/CascadeModel.v
theories/CascadeSpec.v
theories/FontTextSpec.v
theories/DatasetSpec.v
theories/DatasetProofs.v
theories/FontTextProofs.v
theories/CascadeProofs.v
theories/CascadeProofs2.v
theories/CascadeProofs3.v
theories/CascadeProps.v
theories/FeatModel.v
theories/FeatSpec.v
theories/FeatProofs.v
theories/FeatProofs2.v
theories/FeatProps.v
theories/FontSizeModel.v
theories/FontSizeSpec.v
theories/FontSizeProofs.v
theories/FontSizeProps.v
theories/ViewModel.v
theories/ShapeModel.v
theories/GeomModel.v
theories/GeomSpec.v
theories/ViewSpec.v
theories/ViewProofs.v
theories/GeomProofs.v
theories/ComputedModel.v
theories/ComputedSpec.v
theories/ComputedProofs.v
theories/ComputedProofs2.v
theories/ComputedProofs3.v
theories/ComputedProps.v
theories/PathSpec.v
theories/ShapeSpec.v
theories/RectSpec.v
theories/RectProofs.v
theories/PathProofs.v
theories/PathNormProofs.v
theories/PathArcProofs.v
theories/PathBBoxModel.v
theories/PathBBoxSpec.v
theories/PathBBoxProofs.v
theories/ShapeProofs.v
theories/ShapeProps.v
theories/GeomProofs2.v
theories/GeomProps.v
theories/ForestProps.v
theories/WalkModel.v
theories/WalkSpec.v
theories/WalkProofs.v
theories/WalkProps.v
theories/UrlModel.v
theories/NavModel.v
theories/UrlSpec.v
theories/UrlProofs.v
theories/UrlProofs2.v
theories/UrlProofs3.v
theories/UrlProofs4.v
theories/NavSpec.v
theories/NavProofs.v
theories/UrlProofs5.v
theories/UrlProps.v
theories/TokenModel.v
theories/LoadModel.v
theories/LoadSpec.v
theories/LoadProofs.v
theories/LoadProps.v
theories/SheetsModel.v
theories/SheetsSpec.v
theories/SheetsProofs.v
theories/SheetsProps.v
theories/NavProps.v
theories/PathTransProofs.v
theories/TravelModel.v
theories/TravelSpec.v
theories/TravelProofs.v
theories/TravelProofs2.v
theories/TravelProofs3.v
theories/TravelProps.v
theories/UseModel.v
theories/UseSpec.v
theories/LayoutSpec.v
theories/LayoutProofs.v
theories/LayoutProofs2.v
theories/LayoutProofs3.v
theories/LayoutProofs4.v
theories/LayoutProps.v
theories/CtmModel.v
theories/CtmSpec.v
theories/CtmProofs.v
theories/UseProofs.v
theories/UseProofs2.v
theories/UseProofs3.v
theories/UseProps.v
theories/SupportModel.v
theories/SupportTable.v
theories/SupportSpec.v
theories/SupportProofs.v
theories/SupportProofs2.v
theories/SupportProofs3.v
theories/SupportProps.v
theories/ShortModel.v
theories/ShortSpec.v
theories/ShortProofs.v
theories/ShortProofs2.v
theories/ShortProofs3.v
theories/ShortProofs4.v
theories/ShortProofs5.v
theories/ShortProofs6.v
theories/ShortProps.v
theories/TypedTable.v
theories/TypedModel.v
theories/TypedSpec.v
theories/TypedProofs.v
theories/TypedProofs2.v
theories/TypedProofs3.v
theories/TypedProofs4.v
theories/TypedProps.v
theories/RulesModel.v
theories/RulesSpec.v
theories/RulesProofs.v
theories/RulesProofs2.v
theories/RulesProps.v
theories/LookupModel.v
theories/TextModel.v
theories/TextSpec.v
theories/TextProofs.v
theories/TextProofs2.v
theories/CharsModel.v
theories/CharsSpec.v
theories/CharsProofs.v
theories/CharsProofs2.v
theories/CharsProps.v
theories/InlineModel.v
theories/InlineSpec.v
theories/InlineProofs.v
theories/InlineProofs2.v
theories/InlineProps.v
theories/LookupSpec.v
theories/LookupProofs.v
theories/LookupProps.v
theories/SearchParamsModel.v
theories/SearchParamsSpec.v
theories/SearchParamsProofs.v
theories/SearchParamsProps.v
theories/CtmProofs2.v
theories/CtmProps.v
theories/DocumentModel.v
theories/DocumentSpec.v
theories/DocumentProofs.v
theories/DocumentProps.v
theories/FontMatchModel.v
theories/FontMatchSpec.v
theories/FontMatchProofs.v
theories/FontMatchProps.v
theories/UnparsedModel.v
theories/UnparsedSpec.v
theories/UnparsedProofs.v
theories/UnparsedProps.v
theories/EscapeModel.v
theories/EscapeSpec.v
theories/EscapeProps.v
theories/ScreenProps.v
theories/TextProps.v
theories/FontTextProps.v
theories/ViewProps.v
theories/CssUnitSpec.v
theories/CssUnitProofs.v
theories/CssMathModel.v
theories/CssMathSpec.v
theories/CssCalcModel.v
theories/CssCalcSpec.v
theories/CssMathProofs.v
theories/CssCalcProofs.v
theories/CssCalcProps.v
theories/CssTypeSpec.v
theories/CssUnitProps.v
theories/CssMathProps.v
theories/CssSumSpec.v
theories/CssTypeProofs.v
theories/CssSumProofs.v
theories/CssSumProps.v
theories/CssTypeProps.v
theories/MediaListModel.v
theories/MediaListSpec.v
theories/MediaListProofs.v
theories/MediaListProps.v
theories/ContentModel.v
theories/ContentSpec.v
theories/ContentProofs.v
theories/ContentProofs2.v
theories/ContentProofs3.v
theories/ContentProps.v
theories/DatasetProps.v
theories/TokenSpec.v
theories/TokenProofs.v
theories/TokenProofs2.v
theories/TokenProps.v
theories/PathBBoxProps.v
theories/PathProps.v
theories/TransformListModel.v
theories/TransformListSpec.v
theories/TransformListProofs.v
theories/TransformProps.v
theories/FormatProps.v
theories/MatrixProps.v
theories/RectProps.v
theories/MetricModel.v
theories/MetricSpec.v
theories/MetricProofs.v
theories/MetricProps.v
theories/NativeModel.v
theories/NativeSpec.v
theories/NativeProofs.v
theories/NativeProofs2.v
theories/NativeProofs3.v
theories/NativeProps.v
theories/BufModel.v
theories/BufSpec.v
theories/BufProofs.v
theories/BufProofs2.v
theories/BufProps.v
theories/FloatModel.v
theories/FloatSpec.v
theories/FloatProofs.v
theories/FloatProofs2.v
theories/FloatProofs3.v
theories/FloatProps.v
theories/DecModel.v
theories/DecSpec.v
theories/DecProofs.v
theories/DecProofs2.v
theories/DecProofs3.v
theories/DecProps.v
theories/PathArcSpec.v
theories/PathArcProps.v
theories/EdgeProps.v
theories/InlineMaskProps.v
theories/PathTotalProps.v
theories/MatFloatModel.v
theories/MatFloatSpec.v
theories/MatFloatProofs.v
theories/MatFloatProofs2.v
theories/MatFloatProps.v
theories/PathReverseProps.v
theories/PathCircleProps.v
theories/PathDrawnProps.v
theories/MatFloatBoundProps.v
theories/PathCircleBackProps.v
