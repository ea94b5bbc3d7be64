-Q theories Verif
theories/CInt.v
theories/IntModel.v
theories/IntSpec.v
theories/IntProofs.v
theories/IntProofs2.v
theories/IntProofs3.v
theories/IntProofs4.v
theories/IntProps.v
theories/SuperIntModel.v
theories/SuperIntSpec.v
theories/SuperIntProofs.v
theories/SuperIntProps.v
theories/ArrLib.v
theories/HashMapModel.v
theories/HashMapProps.v
theories/FnvModel.v
theories/FnvSpec.v
theories/FnvProps.v
theories/TsModel.v
theories/TsProps.v
theories/FlatMapModel.v
theories/FlatMapSpec.v
theories/FlatMapProofs.v
theories/FlatMapProps.v
theories/RangeMapModel.v
theories/RangeMapSpec.v
theories/RangeMapProofs.v
theories/RangeMapProps.v
theories/FrozenSetsModel.v
theories/FrozenSetsSpec.v
theories/FrozenSetsProofs.v
theories/FrozenSetsProps.v
theories/IntTextModel.v
theories/IntTextSpec.v
theories/IntTextProofs.v
theories/IntTextProps.v
theories/BufferModel.v
theories/BufferProofs.v
theories/BufferProps.v
theories/UninitModel.v
theories/UninitProofs.v
theories/VectorModel.v
theories/VectorSpec.v
theories/VectorProofs.v
theories/VectorProps.v
theories/UninitIndex.v
theories/DequeModel.v
theories/DequeProofs.v
theories/DequeSpec.v
theories/DequeErase.v
theories/DequeProps.v
theories/Base64Model.v
theories/Base64Spec.v
theories/Base64Proofs.v
theories/Base64Proofs2.v
theories/Base64Props.v
theories/UnicodeModel.v
theories/UnicodeSpec.v
theories/UnicodeProofs.v
theories/UnicodeProofs2.v
theories/UnicodeProps.v
theories/MulPrecModel.v
theories/MulPrecSpec.v
theories/MulPrecProofs.v
theories/MulPrecProofs2.v
theories/MulPrecProofs3.v
theories/MulPrecProofs4.v
theories/MulPrecProofs5.v
theories/MulPrecProps.v
theories/RectPackModel.v
theories/RectPackSpec.v
theories/RectPackProofs.v
theories/RectPackProps.v
theories/WordWrapModel.v
theories/WordWrapSpec.v
theories/WordWrapProofs.v
theories/WordWrapProofs2.v
theories/WordWrapProofs3.v
theories/WordWrapProofs4.v
theories/WordWrapProps.v
theories/QuoteModel.v
theories/QuoteSpec.v
theories/QuoteProofs.v
theories/QuoteProofs2.v
theories/QuoteProofs3.v
theories/QuoteProps.v
theories/StringMatcherModel.v
theories/StringMatcherSpec.v
theories/StringMatcherProofs.v
theories/StringMatcherProofs2.v
theories/StringMatcherProofs3.v
theories/StringMatcherProofs4.v
theories/StringMatcherProps.v
theories/IntBitCopyModel.v
theories/IntBitCopySpec.v
theories/IntBitCopyProofs.v
theories/IntBitCopyProofs2.v
theories/IntBitCopyProps.v
theories/BitMediumModel.v
theories/BitMediumSpec.v
theories/BitMediumProofs.v
theories/BitMediumProofs2.v
theories/BitMediumProps.v
theories/PixelBoxModel.v
theories/PixelBoxSpec.v
theories/PixelBoxProps.v
theories/PixelBufModel.v
theories/PixelBufSpec.v
theories/PixelBufProofs.v
theories/PixelBufProofs2.v
theories/PackedPixelModel.v
theories/PackedPixelSpec.v
theories/PackedPixelProofs.v
theories/PackedPixelProofs2.v
theories/PackedPixelProps.v
theories/IntegerPixelModel.v
theories/IntegerPixelSpec.v
theories/IntegerPixelProofs.v
theories/IntegerPixelProps.v
theories/RunSpec.v
theories/RunProofs.v
theories/SubwordPixelModel.v
theories/SubwordPixelSpec.v
theories/SubwordPixelProofs.v
theories/SubwordPixelProps.v
theories/KdtreeModel.v
theories/KdtreeSpec.v
theories/KdtreeProofs.v
theories/KdtreeProps.v
theories/CliPatternModel.v
theories/CliPatternSpec.v
theories/CliGlushkov.v
theories/CliTreeProofs.v
theories/CliBuilderProofs.v
theories/CliNfaProofs.v
theories/CliNfaProps.v
theories/CliMatcherModel.v
theories/CliMatcherSpec.v
theories/CliReachProofs.v
theories/CliDfaProofs.v
theories/CliDfaProofs2.v
theories/CliMatcherProofs.v
theories/CliMatcherProps.v
theories/CliSpecModel.v
theories/CliRecorderModel.v
theories/CliRecorderSpec.v
theories/CliAmbigProofs.v
theories/CliValueProofs.v
theories/CliSpecProofs.v
theories/CliRecorderProofs.v
theories/CliRecorderProofs2.v
theories/CliRecorderProofs3.v
theories/CliRecorderProofs4.v
theories/CliRecorderProps.v
theories/CliParserModel.v
theories/CliParserSpec.v
theories/CliLexerProofs.v
theories/CliParserProofs.v
theories/CliParserProofs2.v
theories/CliParserProofs3.v
theories/CliParserProps.v
theories/CliOptionSpec.v
theories/CliOptionProps.v
theories/CliProcessorModel.v
theories/CliProcessorSpec.v
theories/CliProcessorProofs.v
theories/CliProcessorProofs2.v
theories/CliProcessorProofs3.v
theories/CliProcessorProofs4.v
theories/CliBuildModel.v
theories/CliBuildSpec.v
theories/CliBuildProofs.v
theories/CliBuildProofs2.v
theories/CliBuildProofs3.v
theories/CliBuildProps.v
theories/CliProcessorProps.v
theories/CliArgsModel.v
theories/CliArgsSpec.v
theories/CliArgsProofs.v
theories/CliArgsProofs2.v
theories/CliArgsProofs3.v
theories/CliArgsProps.v
theories/CliRunModel.v
theories/CliRunSpec.v
theories/CliRunProofs.v
theories/CliRunProps.v
theories/CliRootModel.v
theories/CliRootSpec.v
theories/CliRootProofs.v
theories/CliRootProps.v
theories/StrTemplModel.v
theories/StrTemplSpec.v
theories/StrTemplProofs.v
theories/StrTemplProps.v
theories/AsListModel.v
theories/AsListSpec.v
theories/AsListProofs.v
theories/AsListProps.v
theories/NewlineModel.v
theories/NewlineSpec.v
theories/NewlineProofs.v
theories/NewlineProps.v
theories/WinFileModel.v
theories/WinFileSpec.v
theories/WinFileProofs.v
theories/WinFileProps.v
theories/FalloffModel.v
theories/FalloffSpec.v
theories/FalloffProofs.v
theories/FalloffProofs2.v
theories/FalloffProofs3.v
theories/FalloffProofs4.v
theories/FalloffProps.v
theories/IterRepeatModel.v
theories/IterRepeatSpec.v
theories/IterRepeatProofs.v
theories/IterRepeatProps.v
theories/BufFmtModel.v
theories/BufFmtSpec.v
theories/BufFmtProofs.v
theories/BufFmtProofs2.v
theories/BufFmtProofs3.v
theories/BufFmtProofs4.v
theories/BufFmtProofs5.v
theories/BufFmtProps.v
theories/StableSortModel.v
theories/StableSortSpec.v
theories/StableSortProofs.v
theories/StableSortProps.v
theories/CssModel.v
theories/CssSpec.v
theories/CssProofs.v
theories/CssProofs2.v
theories/CssProofs3.v
theories/CssProofs4.v
theories/CssProps.v
theories/PalMapModel.v
theories/PalMapSpec.v
theories/PalMapProofs.v
theories/PalMapProps.v
theories/MatrixModel.v
theories/MatrixSpec.v
theories/MatrixProofs.v
theories/MatrixProofs2.v
theories/MatrixProofs3.v
theories/MatrixProofs4.v
theories/MatrixProofs5.v
theories/MatrixProps.v
theories/MemStreamModel.v
theories/MemStreamSpec.v
theories/MemStreamProofs.v
theories/MemStreamProofs2.v
theories/MemStreamProps.v
theories/ValParseModel.v
theories/ValParseSpec.v
theories/ValParseProps.v
theories/SeedSeqModel.v
theories/SeedSeqSpec.v
theories/SeedSeqProofs.v
theories/SeedSeqProps.v
theories/RandIntModel.v
theories/RandIntSpec.v
theories/RandIntProofs.v
theories/RandIntProps.v
theories/HexDumpModel.v
theories/HexDumpSpec.v
theories/HexDumpProofs.v
theories/HexDumpProps.v
theories/RandomSeedModel.v
theories/RandomSeedSpec.v
theories/RandomSeedProofs.v
theories/RandomSeedProps.v
theories/WildFilterModel.v
theories/WildFilterSpec.v
theories/WildFilterProofs.v
theories/WildFilterProps.v
theories/TestRunModel.v
theories/TestRunSpec.v
theories/TestRunProofs.v
theories/TestRunProofs2.v
theories/TestRunProps.v
theories/CurveMemModel.v
theories/CurveMemSpec.v
theories/CurveMemProofs.v
theories/CurveMemProofs2.v
theories/CurveMemProps.v
theories/TwosCastModel.v
theories/TwosCastProofs.v
theories/TwosCastProps.v
theories/TextParseModel.v
theories/TextParseSpec.v
theories/TextParseProofs.v
theories/TextParseProps.v
theories/FontSpecModel.v
theories/FontSpecSpec.v
theories/FontSpecProofs.v
theories/FontSpecProofs2.v
theories/FontSpecProofs3.v
theories/FontSpecProofs4.v
theories/FontSpecProps.v
theories/TextFileModel.v
theories/TextFileSpec.v
theories/TextFileProofs.v
theories/TextFileProofs2.v
theories/TextFileProofs3.v
theories/TextFileProps.v
theories/KeyBindModel.v
theories/KeyBindSpec.v
theories/KeyBindProofs.v
theories/KeyBindProofs2.v
theories/KeyBindProofs3.v
theories/KeyBindProofs4.v
theories/KeyBindProps.v
theories/QuatModel.v
theories/QuatSpec.v
theories/QuatProofs.v
theories/QuatProofs2.v
theories/QuatProps.v
theories/TrackGeoModel.v
theories/TrackGeoSpec.v
theories/TrackGeoProofs.v
theories/TrackGeoProofs2.v
theories/QuatReals.v
theories/TrackGeoProps.v
theories/HistogramModel.v
theories/HistogramSpec.v
theories/HistogramProofs.v
theories/HistogramProofs2.v
theories/HistogramProps.v
theories/PerlinModel.v
theories/PerlinSpec.v
theories/PerlinProofs.v
theories/PerlinProofs2.v
theories/PerlinProps.v
theories/EnumModel.v
theories/EnumSpec.v
theories/EnumProofs.v
theories/EnumProps.v
theories/FltModel.v
theories/FltSpec.v
theories/FltProofs.v
theories/FltProps.v
theories/FmtRegModel.v
theories/FmtRegSpec.v
theories/FmtRegProofs.v
theories/FmtRegProps.v
theories/StampModel.v
theories/StampSpec.v
theories/StampProofs.v
theories/StampProps.v
theories/LoadModel.v
theories/LoadSpec.v
theories/LoadProofs.v
theories/LoadProps.v
theories/LogLimModel.v
theories/LogLimSpec.v
theories/LogLimProofs.v
theories/LogLimProps.v
theories/LogTextModel.v
theories/LogTextSpec.v
theories/LogTextProps.v
theories/StrideModel.v
theories/StrideProps.v
theories/TimerModel.v
theories/TimerProps.v
theories/BlockModel.v
theories/BlockProps.v
theories/TermModel.v
theories/TermSpec.v
theories/TermProps.v
theories/MultFieldModel.v
theories/MultFieldProps.v
theories/MultWordsModel.v
theories/MultWordsProps.v
