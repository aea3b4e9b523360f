-Q theories Verif
theories/Base.v
theories/BaseFacts.v
theories/EncodingModel.v
theories/EncodingSpec.v
theories/EncodingProofs.v
theories/EncodingProps.v
theories/Decimal.v
theories/DecimalFacts.v
theories/BigIntModel.v
theories/BigIntSpec.v
theories/BigIntProofs.v
theories/BigIntDiv.v
theories/BigIntSigned.v
theories/BigInt256.v
theories/BigInt256Div.v
theories/BigIntText.v
theories/BigIntProps.v
theories/BinaryModel.v
theories/BinarySpec.v
theories/BinaryProofs.v
theories/BinaryProps.v
theories/UuidModel.v
theories/UuidSpec.v
theories/UuidProofs.v
theories/UuidProps.v
theories/ArithModel.v
theories/ArithSpec.v
theories/ArithProofs.v
theories/ArithProps.v
theories/MapModel.v
theories/MapSpec.v
theories/MapProofs.v
theories/MapProps.v
theories/ArrayModel.v
theories/ArraySpec.v
theories/ArrayProofs.v
theories/ArrayStore.v
theories/ArrayMore.v
theories/ArrayProps.v
theories/StringsModel.v
theories/StringsSpec.v
theories/StringsProofs.v
theories/StringsProps.v
theories/StrconvModel.v
theories/StrconvSpec.v
theories/StrconvProofs.v
theories/StrconvProps.v
theories/CsvModel.v
theories/CsvSpec.v
theories/CsvProofs.v
theories/CsvProps.v
theories/JsonModel.v
theories/JsonSpec.v
theories/JsonProofs.v
theories/JsonProofs2.v
theories/JsonProofs3.v
theories/JsonProps.v
theories/ChannelSpec.v
theories/ChannelModel.v
theories/ChannelProofs.v
theories/ChannelProofs2.v
theories/ChannelProofs3.v
theories/ChannelProps.v
theories/ThreadModel.v
theories/ThreadSpec.v
theories/ThreadProofs.v
theories/ThreadProps.v
theories/ServcapModel.v
theories/ServcapProofs.v
theories/ServcapProps.v
theories/ServerSpec.v
theories/ServerModel.v
theories/ServerProofs.v
theories/ServerProofs2.v
theories/ServerProps.v
theories/AtomicSpec.v
theories/AtomicModel.v
theories/AtomicProofs.v
theories/AtomicProofs2.v
theories/AtomicProps.v
theories/ArenaSpec.v
theories/ArenaModel.v
theories/ArenaProofs.v
theories/ArenaProofs2.v
theories/ArenaProps.v
theories/SemverSpec.v
theories/SemverModel.v
theories/SemverProofs.v
theories/SemverProps.v
theories/InstallSpec.v
theories/InstallModel.v
theories/InstallProofs.v
theories/InstallProofs2.v
theories/InstallProps.v
theories/CrashModel.v
theories/CrashProps.v
theories/CliSpec.v
theories/CliModel.v
theories/CliProofs.v
theories/CliProofs2.v
theories/CliProps.v
theories/HttpSpec.v
theories/HttpModel.v
theories/HttpProofs.v
theories/HttpProps.v
theories/PathSpec.v
theories/PathModel.v
theories/PathProofs.v
theories/PathProofs2.v
theories/PathProps.v
theories/LexSpec.v
theories/LexModel.v
theories/LexProofs.v
theories/LexProofs2.v
theories/LexProofs3.v
theories/LexProofs4.v
theories/LexProps.v
theories/FmtSpec.v
theories/FmtModel.v
theories/FmtProofs.v
theories/FmtProofs2.v
theories/FmtProofs3.v
theories/FmtProofs4.v
theories/FmtProofs5.v
theories/FmtProps.v
theories/LitSpec.v
theories/LitModel.v
theories/LitSpec2.v
theories/LitProofs.v
theories/LitProofs2.v
theories/LitProofs3.v
theories/LitProps.v
theories/ProbeModel.v
theories/ProbeProofs.v
theories/ScopeModel.v
theories/ScopeSpec.v
theories/ScopeProofs.v
theories/ScopeProps.v
theories/BsearchModel.v
theories/BsearchProofs.v
theories/TypesModel.v
theories/TypesSpec.v
theories/TypesProofs.v
theories/TypesProofs2.v
theories/TypesProofs3.v
theories/TypesProofs4.v
theories/TypesProps.v
theories/ImportModel.v
theories/ImportSpec.v
theories/ImportProofs.v
theories/ImportProofs2.v
theories/ImportProofs3.v
theories/ImportProps.v
theories/DiagModel.v
theories/DiagSpec.v
theories/DiagProofs.v
theories/DiagProofs2.v
theories/DiagProps.v
theories/NameModel.v
theories/NameSpec.v
theories/NameProofs.v
theories/NameProofs2.v
theories/NameProps.v
theories/ParseSpec.v
theories/ParseModel.v
theories/ParseProofs.v
theories/ParseProofs2.v
theories/ParseProofs3.v
theories/ParseProofs4.v
theories/ParseProofs5.v
theories/ParseProofs6.v
theories/ParseProofs7.v
theories/ParseProps.v
theories/DigestSpec.v
theories/DigestModel.v
theories/DigestProofs.v
theories/DigestProofs2.v
theories/DigestProofs3.v
theories/DigestProps.v
theories/RegexSpec.v
theories/RegexModel.v
theories/RegexProofs.v
theories/RegexProofs2.v
theories/RegexProps.v
theories/FlowSpec.v
theories/FlowModel.v
theories/FlowProofs.v
theories/FlowProofs2.v
theories/FlowProofs3.v
theories/FlowProps.v
theories/CopySpec.v
theories/CopyModel.v
theories/CopyProofs.v
theories/CopyProofs2.v
theories/CopyProps.v
theories/EscapeSpec.v
theories/EscapeModel.v
theories/EscapeProofs.v
theories/EscapeProps.v
theories/MathModel.v
theories/MathSpec.v
theories/MathProofs.v
theories/MathProps.v
theories/CompoundModel.v
theories/CompoundSpec.v
theories/CompoundProofs.v
theories/CompoundProps.v
theories/StructModel.v
theories/StructSpec.v
theories/StructProofs.v
theories/StructProps.v
theories/GenericModel.v
theories/GenericSpec.v
theories/GenericProofs.v
theories/GenericProofs2.v
theories/GenericProps.v
theories/SuggestModel.v
theories/SuggestSpec.v
theories/SuggestProofs.v
theories/SuggestProps.v
theories/ConstModel.v
theories/ConstSpec.v
theories/ConstProofs.v
theories/ConstProofs2.v
theories/ConstProps.v
theories/EmitModel.v
theories/EmitSpec.v
theories/EmitProofs.v
theories/EmitProofs2.v
theories/EmitProofs3.v
theories/EmitProofs4.v
theories/EmitProps.v
theories/FormatSpec.v
theories/FormatModel.v
theories/FormatProofs.v
theories/FormatProofs2.v
theories/FormatProofs3.v
theories/FormatProofs4.v
theories/FormatProofs5.v
theories/FormatProps.v
theories/FilesSpec.v
theories/FilesModel.v
theories/FilesProofs.v
theories/FilesProofs2.v
theories/FilesProofs3.v
theories/FilesProofs4.v
theories/FilesProofs6.v
theories/FilesProofs7.v
theories/FilesProofs8.v
theories/FilesProofs5.v
theories/FilesProps.v
theories/ValueSpec.v
theories/ValueModel.v
theories/ValueProofs.v
theories/ValueProofs2.v
theories/ValueProofs3.v
theories/ValueProps.v
theories/ExecSpec.v
theories/ExecModel.v
theories/ExecProofs.v
theories/ExecProofs2.v
theories/ExecProps.v
theories/PrintSpec.v
theories/PrintModel.v
theories/PrintProofs.v
theories/PrintProofs2.v
theories/PrintProofs3.v
theories/PrintProps.v
theories/ArgsSpec.v
theories/ArgsModel.v
theories/ArgsProofs.v
theories/ArgsProofs2.v
theories/ArgsProofs3.v
theories/ArgsProps.v
theories/InitSpec.v
theories/InitModel.v
theories/InitProofs.v
theories/InitProps.v
theories/EnumSpec.v
theories/EnumModel.v
theories/EnumProofs.v
theories/EnumProps.v
theories/RangeSpec.v
theories/RangeModel.v
theories/RangeProofs.v
theories/RangeProps.v
theories/StrictSpec.v
theories/StrictModel.v
theories/StrictProps.v
theories/RandomSpec.v
theories/RandomModel.v
theories/RandomProps.v
theories/BufSpec.v
theories/BufModel.v
theories/BufProps.v
theories/EachSpec.v
theories/EachModel.v
theories/EachProps.v
theories/RenameSpec.v
theories/RenameModel.v
theories/RenameProps.v
theories/CcSpec.v
theories/CcModel.v
theories/CcProps.v
