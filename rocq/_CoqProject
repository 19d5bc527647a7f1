-Q theories Verif
theories/Outcome.v
theories/LimbsModel.v
theories/LimbsSpec.v
theories/VTac.v
theories/LimbsProofs.v
theories/BigUintModel.v
theories/BigIntModel.v
theories/JsBigintModel.v
theories/ShiftProofs.v
theories/BigUintProofs.v
theories/Prop_BigUint.v
theories/BigSpec.v
theories/BigIntProofs.v
theories/Prop_BigInt.v
theories/JsBigintProofs.v
theories/JsBitsProofs.v
theories/JsDivProofs.v
theories/Prop_JsBigint.v
theories/BigFloatModel.v
theories/BigFloatSpec.v
theories/BigFloatProofs.v
theories/BigFloatReal.v
theories/BigFloatRound.v
theories/Prop_BigFloat.v
theories/RangeMapModel.v
theories/RangeMapSpec.v
theories/RangeMapProofs.v
theories/Prop_RangeMap.v
theories/TokenizerModel.v
theories/TokenizerSpec.v
theories/TokenizerProofs.v
theories/TokenizerRun.v
theories/TokenizerLex.v
theories/TokenizerNum.v
theories/TokenizerTotal.v
theories/TokenizerGrammar.v
theories/Prop_Tokenizer.v
theories/ValueModel.v
theories/ParserModel.v
theories/ParserSpec.v
theories/BTreeProofs.v
theories/ParserProofs.v
theories/ParserRun.v
theories/ParserModules.v
theories/PathProofs.v
theories/ParserMore.v
theories/Prop_Parser.v
theories/SerializerModel.v
theories/SerializerSpec.v
theories/SerializerProofs.v
theories/SerializerDjs.v
theories/SerializerRead.v
theories/Prop_Serializer.v
theories/BitsetModel.v
theories/BitsetSpec.v
theories/BitsetProofs.v
theories/Prop_Bitset.v
theories/LayoutModel.v
theories/LayoutSpec.v
theories/LayoutProofs.v
theories/Prop_Layout.v
theories/MemModel.v
theories/MemSpec.v
theories/MemSizes.v
theories/MemProofs.v
theories/MemRun.v
theories/Prop_Mem.v
theories/ThreadModel.v
theories/ThreadSpec.v
theories/ThreadProofs.v
theories/Prop_Thread.v
theories/TextSpec.v
theories/TextProofs.v
theories/TextTokens.v
theories/Prop_Text.v
theories/ParserHeap.v
theories/ParserTree.v
theories/ConvertSpec.v
theories/Prop_Convert.v
theories/OrderModel.v
theories/OrderSpec.v
theories/OrderProofs.v
theories/Prop_Order.v
theories/JsTextSpec.v
theories/JsTextProofs.v
theories/JsTextUnique.v
theories/Prop_JsText.v
theories/UnwindModel.v
theories/UnwindSpec.v
theories/Prop_Unwind.v
theories/CounterModel.v
theories/Prop_Counter.v
theories/CostModel.v
theories/CostSpec.v
theories/Prop_Cost.v
theories/Prop_Names.v
theories/Prop_Small.v
theories/Prop_Division.v
theories/NumberSafe.v
theories/TokenizerSafe.v
theories/Prop_Safe.v
theories/DivTrap.v
theories/Prop_Trap.v
theories/Prop_Path.v
theories/JsonSpec.v
theories/Prop_Json.v
theories/FuelMono.v
theories/LexSpec.v
theories/LexSound.v
theories/LexComplete.v
theories/Prop_Lex.v
theories/ExpModel.v
theories/Prop_Exp.v
theories/Prop_Viable.v
theories/Prop_Systems.v
theories/JsonCode.v
theories/Prop_Canonical.v
theories/Prop_Astral.v
theories/Prop_Drop.v
theories/Prop_Rust.v
theories/ReleaseModel.v
theories/ReleaseProofs.v
theories/Prop_Release.v
theories/Prop_Alloc.v
theories/Prop_Errors.v
theories/Prop_Frame.v
theories/DropModel.v
theories/DropProofs.v
theories/Prop_Discard.v
theories/DropKept.v
theories/DropName.v
theories/BlameProofs.v
theories/Prop_Blame.v
