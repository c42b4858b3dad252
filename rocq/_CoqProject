-Q theories Verif
theories/Base.v
theories/Utf8.v
theories/Sizeofs.v
theories/Reader.v
theories/PackedFixed.v
theories/Writer.v
theories/BaseFacts.v
theories/Spec.v
theories/VarintFacts.v
theories/WriterFacts.v
theories/ScalarFacts.v
theories/DelimFacts.v
theories/FileIo.v
theories/BackendFacts.v
theories/Utf8Facts.v
theories/PackedFixedFacts.v
theories/ExactFacts.v
theories/SimFacts.v
theories/Schema.v
theories/Gen.v
theories/GenSem.v
theories/GenSpec.v
theories/GenEmit.v
theories/GenRead.v
theories/GenSame.v
theories/GenSim.v
theories/GenExact.v
theories/GenRecords.v
theories/GenLaws.v
theories/GenEnc.v
theories/GenCheck.v
theories/GenType.v
theories/GenCut.v
theories/Examples.v
theories/Props_Scalars.v
theories/Props_Containers.v
theories/Props_Backends.v
theories/Props_Generated.v
theories/Props_Wire.v
theories/Props_Safety.v
theories/Keywords.v
theories/KeywordFacts.v
theories/Modules.v
theories/ModuleFacts.v
theories/Passes.v
theories/Scc.v
theories/SccFacts.v
theories/Props_Names.v
theories/Cycles.v
theories/CycleFacts.v
theories/BreakFacts.v
theories/IndexFacts.v
theories/Pipeline.v
theories/Props_Cycles.v
theories/PassFacts.v
theories/ResolveFacts.v
theories/Props_Passes.v
theories/Props_Resolve.v
theories/AcceptFacts.v
theories/Props_Accepted.v
theories/Parser.v
theories/ParserFacts.v
theories/ProtoText.v
theories/TextFacts.v
theories/FieldText.v
theories/MessageText.v
theories/FileText.v
theories/ParserOut.v
theories/ParserPanic.v
theories/Props_Parser.v
theories/Import.v
theories/Props_Import.v
theories/Props_EndToEnd.v
theories/Lifetime.v
theories/LifetimeFacts.v
theories/Props_Lifetime.v
theories/Paths.v
theories/PathFacts.v
theories/PlaceFacts.v
theories/Props_Paths.v
theories/RustTypes.v
theories/Emit.v
theories/EmitFacts.v
theories/Props_TypeCheck.v
theories/Literals.v
theories/LiteralFacts.v
theories/Props_Literals.v
theories/Uses.v
theories/UseFacts.v
theories/Props_Uses.v
theories/Floats.v
theories/RustLit.v
theories/Props_Defaults.v
theories/EnumCode.v
theories/Props_Enums.v
theories/Props_Info.v
theories/Props_Memory.v
theories/Owned.v
theories/OwnedFacts.v
theories/OwnedGen.v
theories/Props_Owned.v
theories/Output.v
theories/OutputFacts.v
theories/Props_Output.v
theories/Props_Config.v
theories/GenText.v
theories/RustLex.v
theories/RustAst.v
theories/RustParse.v
theories/RustParseFacts.v
theories/GenAst.v
theories/LexFacts.v
theories/GenAstFacts.v
theories/GenAstOk.v
theories/GenGood.v
theories/Props_Text.v
theories/RustSem.v
theories/Meaning.v
theories/MeanFacts.v
theories/MeanSize.v
theories/MeanWrite.v
theories/MeanRead.v
theories/MeanConst.v
theories/MeanNames.v
theories/MeanGet.v
theories/Props_Meaning.v
theories/Props_Getters.v
theories/Props_Run.v
theories/SuccessFacts.v
theories/Props_Success.v
theories/Props_Total.v
theories/OwnedSem.v
theories/OwnedSemFacts.v
theories/Props_OwnedText.v
theories/Errors.v
theories/Props_Errors.v
theories/MeanImports.v
theories/MeanCopy.v
theories/Props_Imports.v
theories/Props_Boxes.v
theories/GenBack.v
theories/Props_Exact.v
theories/RustLife.v
theories/LifeTree.v
theories/Props_Lives.v
theories/BufOut.v
theories/Props_Faults.v
theories/PbErrors.v
theories/Props_PbErrors.v
theories/ImplFrom.v
theories/Props_Froms.v
theories/Props_CrateRun.v
theories/Stack.v
theories/StackDeep.v
theories/Props_Stack.v
theories/Props_ExactRuns.v
theories/Cost.v
theories/Props_Cost.v
theories/Props_CrateGet.v
theories/Copies.v
theories/Props_Copies.v
theories/Props_WholeRun.v
theories/Props_Derive.v
theories/Conform.v
