-Q theories Verif
theories/Base.v
theories/Token.v
theories/Lexer.v
theories/Pos.v
theories/Ast.v
theories/Builder.v
theories/Prog.v
theories/Iter.v
theories/Located.v
theories/Balanced.v
theories/ParserBase.v
theories/Arith.v
theories/Word.v
theories/Redirect.v
theories/Command.v
theories/DefaultBuilder.v
theories/EmptyBuilder.v
theories/Conformance.v
theories/LexSpec.v
theories/LexProofs.v
theories/LexTheorems.v
theories/IterProofs.v
theories/RunLemmas.v
theories/BalancedSpec.v
theories/BalancedProofs.v
theories/BaseRun.v
theories/BalancedTotal.v
theories/Wp.v
theories/WpArith.v
theories/WpWord.v
theories/WpRedirect.v
theories/WpCommand.v
theories/Entry.v
theories/EntryWp.v
theories/Total.v
theories/Panics.v
theories/Blank.v
theories/ErrorPos.v
theories/Sim.v
theories/SimArith.v
theories/SimWord.v
theories/SimCommand.v
theories/Api.v
theories/SameParse.v
theories/Spy.v
theories/Compress.v
theories/PositionalNum.v
theories/Relex.v
theories/Runs.v
theories/ArithSpec.v
theories/ArithRuns.v
theories/Pure.v
theories/HeredocSpec.v
theories/Forms.v
theories/BaseForms.v
theories/WordRuns.v
theories/HeredocRuns.v
theories/CommandRuns.v
theories/CompoundRuns.v
theories/FormsRuns.v
theories/FormsTheorems.v
theories/Seams.v
theories/ArithTheorems.v
theories/Raises.v
theories/ArithLiterals.v
theories/Gives.v
theories/ArithSound.v
theories/Quotes.v
theories/Comments.v
theories/Heredocs.v
theories/Reserved.v
theories/Incomplete.v
theories/Lookahead.v
theories/Descriptors.v
theories/ArithExact.v
theories/SoundBase.v
theories/SoundWord.v
theories/SoundCommand.v
theories/SoundScript.v
theories/Exact.v
theories/ExactMethods.v
theories/WellFormed.v
theories/Printer.v
theories/LexJoin.v
theories/Join.v
theories/RoundTripWord.v
theories/RoundTripCommand.v
theories/RoundTrip.v
theories/CoreBuilder.v
theories/CoreConvert.v
theories/Display.v
theories/Eof.v
theories/Stable.v
theories/StableWord.v
theories/StableCommand.v
theories/Final.v
theories/Lazy.v
theories/LazyWord.v
theories/LazyCommand.v
theories/LazyLine.v
theories/LexDemand.v
theories/Nest.v
theories/Trace.v
theories/TraceSound.v
theories/Backquote.v
theories/ConformanceAst.v
theories/Written.v
theories/WrittenSound.v
theories/Protocol.v
theories/ProtocolSound.v
theories/ProtocolTheorems.v
theories/Front.v
theories/Work.v
theories/WorkBase.v
theories/WorkBal.v
theories/WorkArith.v
theories/WorkWord.v
theories/WorkRedirect.v
theories/WorkCommand.v
theories/WorkApi.v
theories/Names.v
theories/NamesArith.v
theories/NamesWord.v
theories/NamesCommand.v
theories/NamesApi.v
theories/JoinSep.v
theories/OneLine.v
theories/Prefix.v
theories/NestFor.v
