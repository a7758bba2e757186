-Q theories Verif
theories/Base.v
theories/Util.v
theories/Lexer.v
theories/Spec.v
theories/LexProof.v
theories/LexDoc.v
theories/LexMain.v
theories/LexSpec.v
theories/LexClaim.v
theories/LexLocal.v
theories/LexSafe.v
theories/MalSpec.v
theories/Dfa.v
theories/Constraint.v
theories/Stream.v
theories/TreeSem.v
theories/Compress.v
theories/CompressProof.v
theories/Regex.v
theories/RegexProof.v
theories/Mixer.v
theories/MixerProof.v
theories/Builder.v
theories/Num.v
theories/Eval.v
theories/Filter.v
theories/AutoProof.v
theories/QueryClass.v
theories/BuilderProof.v
theories/Roles.v
theories/Compiled.v
theories/TreeSel.v
theories/SelProof.v
theories/FilterProof.v
theories/SelFilter.v
theories/Loader.v
theories/Run.v
theories/FilterSpec.v
theories/EvalProof.v
theories/EndToEnd.v
theories/AnyQuery.v
theories/PosSpec.v
theories/PosProof.v
theories/Claims.v
theories/RecSpec.v
theories/PipeSpec.v
theories/KeepSpec.v
theories/CellSpec.v
theories/SliceSpec.v
theories/ClaimProof.v
theories/Noise.v
theories/Records.v
theories/Pipe.v
theories/Keep.v
theories/Samples.v
theories/TreeInv.v
theories/AnyRun.v
theories/Findings.v
theories/SliceProof.v
theories/SliceAny.v
theories/FinalSpec.v
theories/FinalFilter.v
theories/FinalMore.v
theories/TestedField.v
theories/DescBuild.v
theories/DescFilter.v
theories/SliceOne.v
theories/Compose.v
theories/QueryMore.v
theories/AutoSpec.v
theories/AutoClaim.v
theories/Trunc.v
theories/Malformed.v
theories/Props_Query.v
theories/Props_Lex.v
theories/FilterClaim.v
theories/Props_Filter.v
theories/Lost.v
theories/Props_Auto.v
theories/CutSpec.v
theories/Flat.v
theories/Cut.v
theories/LoaderProof.v
theories/Pieces.v
theories/PieceRun.v
theories/PieceDoc.v
theories/DueSpec.v
theories/Due.v
theories/DueRun.v
theories/LoadClaim.v
theories/Props_Load.v
theories/Worker.v
theories/Merge.v
theories/Cells.v
theories/CellsProof.v
theories/CellFilter.v
theories/CellFilterProof.v
theories/CellTab.v
theories/CellTabProof.v
theories/Chains.v
theories/WorkRep.v
theories/TrainSpec.v
theories/Train.v
theories/TrainDoc.v
theories/Props_Train.v
theories/Sched.v
theories/SchedProof.v
theories/Props_Sched.v
theories/ParseSpec.v
theories/Parser.v
theories/ParseProof.v
theories/Props_Parse.v
theories/NestSpec.v
theories/Single.v
theories/SingleRun.v
theories/RecPar.v
theories/Shared.v
theories/Specul.v
theories/Pruned.v
theories/Units.v
theories/ReportSpec.v
theories/Report.v
theories/Steps.v
theories/MergeProof.v
theories/ParSpec.v
theories/ParCalm.v
theories/ParDoc.v
theories/ParTrain.v
theories/ParSlice.v
theories/Tables.v
theories/Props_Par.v
theories/Props_Chunk.v
theories/Ends.v
theories/Props_Ends.v
theories/RelaxSpec.v
theories/Relax.v
theories/MalRun.v
theories/Props_Relax.v
theories/VerbSpec.v
theories/Verbatim.v
theories/CellEngine.v
theories/CellEngineProof.v
theories/CellTrain.v
theories/CellRun.v
theories/VerbPar.v
theories/Props_Verb.v
theories/Props_Rec.v
theories/Props_Junk.v
theories/Props_Pipe.v
theories/Props_Keep.v
theories/Props_Cells.v
theories/Props_Table.v
theories/Props_Opt.v
theories/Props_Arrays.v
