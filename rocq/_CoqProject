-Q theories Verif
theories/Base.v
theories/Num.v
theories/Regex.v
theories/Geo.v
theories/Stl.v
theories/Env.v
theories/StlRead.v
theories/Ast.v
theories/Lexer.v
theories/Parser.v
theories/Ps.v
theories/Draw.v
theories/Main.v
theories/NumReal.v
theories/NumF64.v
theories/NumLaws.v
theories/P_Base.v
theories/P_Meta.v
theories/P_Frame.v
theories/P_Dims.v
theories/P_Doc.v
theories/EnvEx.v
theories/DocSpec.v
theories/P_Script.v
theories/P_Script2.v
theories/P_Why.v
theories/P_Script3.v
theories/P_Script4.v
theories/ExDoc.v
theories/ExDoc2.v
theories/Prop_Doc.v
theories/P_Order.v
theories/P_Part.v
theories/P_Index.v
theories/P_Hide.v
theories/GeoSpec.v
theories/F64Spec.v
theories/P_Geo1.v
theories/P_Bound.v
theories/ExGeo.v
theories/RealSpec.v
theories/HideSpec.v
theories/PictSpec.v
theories/P_Real.v
theories/P_Lines.v
theories/P_Span.v
theories/P_Span2.v
theories/SortSpec.v
theories/P_Sort.v
theories/ExSort.v
theories/P_Exact.v
theories/P_Pict.v
theories/ExReal.v
theories/Prop_Geo.v
theories/StlSpec.v
theories/P_Stl.v
theories/ExStl.v
theories/Prop_Stl.v
theories/LangSpec.v
theories/P_Lex.v
theories/P_Lex2.v
theories/P_Lex3.v
theories/Grammar.v
theories/P_Parser.v
theories/P_Parser2.v
theories/P_Parser3.v
theories/P_Dead.v
theories/P_Lang.v
theories/EndSpec.v
theories/P_Total.v
theories/P_Layout.v
theories/PrintSpec.v
theories/P_Print.v
theories/P_Lang2.v
theories/P_Lang3.v
theories/ExLang.v
theories/Prop_Lang.v
theories/PickSpec.v
theories/P_Pick.v
theories/P_Near.v
theories/CircleSpec.v
theories/P_Circle.v
theories/P_Circle2.v
theories/P_Circle3.v
theories/P_Circle4.v
theories/DimSpec.v
theories/P_Value.v
theories/P_Value2.v
theories/P_Centre.v
theories/P_Circle5.v
theories/ExDim.v
theories/Prop_Dim.v
theories/PsSpec.v
theories/P_Ps.v
theories/P_Ps2.v
theories/P_Ps3.v
theories/P_Ps4.v
theories/ExPs.v
theories/Prop_Ps.v
theories/MarkSpec.v
theories/P_Mark.v
theories/P_Mark2.v
theories/P_Mark3.v
theories/FiniteSpec.v
theories/P_Finite.v
theories/P_Finite2.v
theories/ValidSpec.v
theories/P_Valid.v
theories/ExMark.v
theories/Prop_Mark.v
theories/ExFin.v
theories/ExFin2.v
theories/Prop_Fin.v
theories/P_Files.v
theories/ShuffleSpec.v
theories/P_Shuffle.v
theories/ExMore.v
theories/Prop_More.v
theories/P_Move.v
theories/P_Move2.v
theories/ExPict.v
theories/Prop_Pict.v
theories/BoxSpec.v
theories/ViewSpec.v
theories/P_Box.v
theories/P_Named.v
theories/P_Named2.v
theories/P_Float.v
theories/ExView.v
theories/Prop_View.v
theories/P_Finite64.v
theories/ExFin64.v
theories/AlikeSpec.v
theories/P_Alike.v
theories/ExAlike.v
theories/Prop_Alike.v
theories/SyntaxSpec.v
theories/P_Syntax.v
theories/P_Syntax2.v
theories/Prop_Syntax.v
theories/MsgSpec.v
theories/P_Msg.v
theories/P_Msg2.v
theories/P_Msg3.v
theories/P_Msg4.v
theories/ExMsg.v
theories/Prop_Msg.v
theories/SaySpec.v
theories/P_Say.v
theories/P_Say2.v
theories/P_Say3.v
theories/ExSay.v
theories/Prop_Say.v
theories/TextSpec.v
theories/P_Text.v
theories/P_Text2.v
theories/P_Text3.v
theories/ExText.v
theories/ExText2.v
theories/Prop_Text.v
theories/ErrSpec.v
theories/P_Err.v
theories/P_Err2.v
theories/P_Err3.v
theories/P_Err4.v
theories/P_Pi.v
theories/P_Err5.v
theories/FollowSpec.v
theories/P_Follow.v
theories/ExErr.v
theories/ExFollow.v
theories/Prop_Err.v
theories/Lalr.v
theories/LrParser.v
theories/LrHeap.v
theories/HeapSpec.v
theories/P_Lr.v
theories/LalrSpec.v
theories/P_Lalr.v
theories/P_LrHeap.v
theories/Prop_Tables.v
theories/PaperSpec.v
theories/P_Paper.v
theories/P_Paper2.v
theories/ExPaper.v
theories/Prop_Paper.v
theories/MainIo.v
theories/P_MainIo.v
theories/P_Cut.v
theories/Prop_Cut.v
theories/DrawLk.v
theories/P_Lookup.v
theories/LookSpec.v
theories/P_Lookup2.v
theories/P_Lookup3.v
theories/ExLook.v
theories/P_FinDim64.v
theories/ExFinDim.v
theories/FinDimSpec.v
theories/P_FinDim2.v
theories/P_FinDim3.v
theories/ExFinDim2.v
theories/P_Lookup4.v
theories/ExLook2.v
theories/Prop_Look.v
theories/ExNeg.v
theories/Prop_Fin2.v
theories/Bazel.v
theories/BazelSpec.v
theories/P_Bazel.v
theories/ExBazel.v
theories/Prop_Bazel.v
theories/SizeSpec.v
theories/P_Size.v
theories/ExSize.v
theories/Prop_Size.v
theories/CircSpec.v
theories/P_Circ64.v
theories/P_Ring64.v
theories/P_CircLabel.v
theories/ExCirc64.v
theories/Prop_Circ64.v
theories/Run.v
theories/TestFiles.v
theories/TestCases.v
theories/TestUnit.v
theories/StackSpec.v
theories/P_LrDepth.v
theories/P_LrTime.v
theories/P_LrSharp.v
theories/Prop_Stack.v
theories/WeightSpec.v
theories/P_Weight.v
theories/Prop_Weight.v
