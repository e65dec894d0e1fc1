-Q theories Verif
theories/Base.v
theories/Utf8.v
theories/Utf8Facts.v
theories/Escape.v
theories/EscapeFacts.v
theories/Prop_Escape.v
theories/Filters.v
theories/FilterSpec.v
theories/FilterFacts.v
theories/Prop_Filters.v
theories/Loop.v
theories/Prop_Loop.v
theories/Ws.v
theories/WsFacts.v
theories/Prop_Ws.v
theories/Config.v
theories/ConfigFacts.v
theories/Prop_Config.v
theories/Ident.v
theories/IdentFacts.v
theories/Prop_Ident.v
theories/Api.v
theories/ApiFacts.v
theories/Prop_Api.v
theories/Nom.v
theories/Lex.v
theories/Ast.v
theories/ParseExpr.v
theories/ParseNode.v
theories/ParseTests.v
theories/NomFacts.v
theories/LexFacts.v
theories/LitSpec.v
theories/LitFacts.v
theories/ParseSpec.v
theories/ExprFacts.v
theories/NodeFacts.v
theories/TreeSpec.v
theories/TplFacts.v
theories/TextFacts.v
theories/CommentFacts.v
theories/LevelFacts.v
theories/Prop_Parse.v
theories/GenExpr.v
theories/Heritage.v
theories/Gen.v
theories/Sem.v
theories/Shipped.v
theories/ShippedFacts.v
theories/RefSem.v
theories/TestWorld.v
theories/RepoTests.v
theories/Prop_Gen.v
theories/HeritageSpec.v
theories/HeritageFacts.v
theories/UsedFacts.v
theories/Prop_Heritage.v
theories/RexprFacts.v
theories/FlushFacts.v
theories/Scoped.v
theories/SimExpr.v
theories/SimFacts.v
theories/GenSteps.v
theories/GenElab.v
theories/SimRel.v
theories/SimBuf.v
theories/SimNode.v
theories/SimCtl.v
theories/SimScope.v
theories/Sim.v
theories/CallFacts.v
theories/FlatSpec.v
theories/FlatFacts.v
theories/Prop_Render.v
theories/Prop_Flat.v
theories/FragSpec.v
theories/FragFacts.v
theories/Prop_Frag.v
theories/EndSpec.v
theories/EndFacts.v
theories/Prop_End.v
theories/ApartFacts.v
theories/PanicSpec.v
theories/PanicFacts.v
theories/PanicGen.v
theories/PanicTop.v
theories/FuelFacts.v
theories/Prop_Panic.v
theories/PrecSpec.v
theories/LitComplete.v
theories/PrecFacts.v
theories/PrecRound.v
theories/PrecTop.v
theories/Prop_Prec.v
theories/WriteSpec.v
theories/WriteTarget.v
theories/WriteExpr.v
theories/WriteTag.v
theories/WriteRound.v
theories/Prop_Write.v
theories/Effect.v
theories/EffectFacts.v
theories/Prop_Effect.v
theories/EffSem.v
theories/EffOrder.v
theories/EffRef.v
theories/EffExpr.v
theories/EffAny.v
theories/EffMeaning.v
theories/Prop_Order.v
theories/ShowFacts.v
theories/ReadSpec.v
theories/ReadFacts.v
theories/GroupSpec.v
theories/GroupFacts.v
theories/GroupGen.v
theories/Prop_Group.v
theories/Prop_Iter.v
theories/RustText.v
theories/GenText.v
theories/RustSpec.v
theories/StrSpec.v
theories/RustFacts.v
theories/RustShow.v
theories/TokenSpec.v
theories/TokenFacts.v
theories/TokenRead.v
theories/TokenExpr.v
theories/TokenShow.v
theories/RustGen.v
theories/Prop_Rust.v
theories/Derive.v
theories/Prop_Derive.v
theories/StmtSpec.v
theories/StmtGen.v
theories/Prop_Stmt.v
theories/LendSpec.v
theories/ExprGen.v
theories/LendFacts.v
theories/Prop_Lend.v
theories/Prop_Token.v
theories/BindSpec.v
theories/BindFacts.v
theories/BindGen.v
theories/Prop_Bind.v
theories/FmtSpec.v
theories/FmtGen.v
theories/Prop_Fmt.v
theories/Order.v
theories/OrderFacts.v
theories/Prop_Maps.v
theories/InjectSpec.v
theories/InjectGen.v
theories/Prop_Inject.v
theories/MoveSpec.v
theories/MoveGen.v
theories/MoveFacts.v
theories/Prop_Move.v
theories/Prop_Spell.v
theories/Prop_Child.v
theories/Prop_Hint.v
theories/Prop_Outline.v
theories/Prop_Unused.v
theories/Prop_Dead.v
theories/Prop_Rename.v
theories/Prop_BlockNames.v
theories/Prop_Names.v
theories/Prop_Comment.v
