-Q theories Verif
theories/Base.v
theories/M_Array.v
theories/S_Array.v
theories/S_Structural.v
theories/P_Array.v
theories/M_Structural.v
theories/P_Reverse.v
theories/P_Transpose.v
theories/P_Take.v
theories/P_Comma.v
theories/P_Structural.v
theories/Prop_Structural.v
theories/Eff.v
theories/S_Reduce.v
theories/M_Reduce.v
theories/M_Identity.v
theories/P_Reduce.v
theories/P_Nwise.v
theories/P_Replicate.v
theories/Prop_Reduce.v
theories/S_Operators.v
theories/M_Operators.v
theories/P_Operators.v
theories/Prop_Operators.v
theories/S_Search.v
theories/M_Search.v
theories/P_Search.v
theories/Prop_Search.v
theories/M_Number.v
theories/S_Number.v
theories/P_Number.v
theories/P_Tower.v
theories/P_Float.v
theories/P_Order.v
theories/Prop_Number.v
theories/M_Scalar.v
theories/P_Scalar.v
theories/P_ScalarArr.v
theories/Prop_Scalar.v
theories/M_Index.v
theories/S_Index.v
theories/P_Index.v
theories/P_Assign.v
theories/Prop_Index.v
theories/M_List.v
theories/S_List.v
theories/P_List.v
theories/Prop_List.v
theories/M_Dict.v
theories/S_Dict.v
theories/P_Dict.v
theories/Prop_Dict.v
theories/M_Syntax.v
theories/M_Eval.v
theories/S_Eval.v
theories/P_Eval.v
theories/P_Eval2.v
theories/P_Eval3.v
theories/P_Tail.v
theories/Prop_Eval.v
theories/M_Scan.v
theories/S_Scan.v
theories/P_Scan.v
theories/Prop_Scan.v
theories/M_Parse.v
theories/S_Parse.v
theories/P_Parse.v
theories/P_Lines.v
theories/P_Sentence.v
theories/Prop_Parse.v
theories/P_Sentence2.v
theories/P_Sentence3.v
theories/S_Grammar.v
theories/P_Grammar.v
theories/P_Grammar2.v
theories/Prop_Grammar.v
theories/M_Chan.v
theories/S_Chan.v
theories/P_Chan.v
theories/P_Chan2.v
theories/P_Chan3.v
theories/P_Chan4.v
theories/P_Chan5.v
theories/P_Chan6.v
theories/Prop_Chan.v
theories/M_ChanText.v
theories/Prop_ChanText.v
theories/M_Decode.v
theories/S_Decode.v
theories/P_Decode.v
theories/P_Decode2.v
theories/P_Decode3.v
theories/P_Decode4.v
theories/P_Decode5.v
theories/P_Decode6.v
theories/M_DecodeNum.v
theories/P_DecodeNum.v
theories/Prop_Decode.v
theories/M_Heap.v
theories/S_Heap.v
theories/P_Heap.v
theories/P_Heap2.v
theories/P_Heap3.v
theories/Prop_Heap.v
theories/Prop_Program.v
theories/Prop_Names.v
theories/Prop_ChanPrint.v
theories/S_HeapUpdate.v
theories/P_Heap4.v
theories/P_Heap5.v
theories/P_Heap6.v
theories/Prop_Heap2.v
theories/M_Table.v
theories/S_Table.v
theories/P_Table.v
theories/P_Table2.v
theories/P_Table3.v
theories/P_Table4.v
theories/Prop_Table.v
theories/P_Table5.v
theories/Prop_Table2.v
theories/Prop_Table3.v
theories/P_Table6.v
theories/Prop_Table4.v
theories/M_Strings.v
theories/S_Strings.v
theories/P_Strings.v
theories/Prop_Strings.v
theories/M_Format.v
theories/S_Format.v
theories/P_Format.v
theories/P_Format2.v
theories/P_Format3.v
theories/Prop_Format.v
theories/M_Domino.v
theories/S_Domino.v
theories/P_Domino.v
theories/P_Domino2.v
theories/Prop_Domino.v
theories/M_Mount.v
theories/S_Mount.v
theories/P_Mount.v
theories/Prop_Mount.v
theories/M_Time.v
theories/S_Time.v
theories/P_Time.v
theories/Prop_Time.v
theories/M_Stencil.v
theories/S_Stencil.v
theories/P_Stencil.v
theories/Prop_Stencil.v
theories/M_File.v
theories/S_File.v
theories/Prop_File.v
theories/M_Image.v
theories/P_Image.v
theories/Prop_Image.v
theories/M_Xgo.v
theories/Prop_Xgo.v
theories/M_Rpc.v
theories/Prop_Rpc.v
theories/M_Commands.v
theories/Prop_Commands.v
theories/M_Rank.v
theories/S_Rank.v
theories/P_Rank.v
theories/Prop_Rank.v
theories/M_Big.v
theories/S_Big.v
theories/P_Big.v
theories/P_Big2.v
theories/P_Big3.v
theories/P_Big4.v
theories/P_Big5.v
theories/Prop_Big.v
theories/P_Big6.v
theories/Prop_Big2.v
theories/M_Dispatch.v
theories/S_Dispatch.v
theories/P_Dispatch.v
theories/P_Dispatch2.v
theories/P_Dispatch3.v
theories/P_Dispatch4.v
theories/P_Dispatch5.v
theories/P_Dispatch6.v
theories/P_Dispatch7.v
theories/Prop_Dispatch.v
theories/M_Select.v
theories/P_Select.v
theories/Prop_Select.v
theories/M_Csv.v
theories/S_Csv.v
theories/Prop_Csv.v
theories/P_EvalOut.v
theories/M_Execute.v
theories/Prop_Execute.v
theories/Prop_DispatchOp.v
theories/M_Complex.v
theories/S_Complex.v
theories/P_Complex.v
theories/P_Complex2.v
theories/Prop_Complex.v
theories/M_TimeText.v
theories/S_TimeText.v
theories/P_TimeText.v
theories/P_TimeText2.v
theories/P_TimeText3.v
theories/P_TimeText4.v
theories/P_TimeText5.v
theories/Prop_TimeText.v
theories/M_Session.v
theories/S_Session.v
theories/P_Session.v
theories/Prop_Session.v
theories/Prop_Idioms.v
theories/Prop_Product.v
theories/M_Json.v
theories/S_Json.v
theories/P_Json.v
theories/P_Json2.v
theories/Prop_Json.v
theories/S_AssignEval.v
theories/P_AssignEval.v
theories/Prop_AssignEval.v
theories/Prop_Big3.v
theories/Prop_Big4.v
theories/P_ParseSafe.v
theories/Prop_ParseSafe.v
theories/M_Programs.v
theories/S_Programs.v
theories/P_Programs.v
theories/P_Programs2.v
theories/P_Programs3.v
theories/Prop_Programs.v
theories/M_Iv.v
theories/Prop_Iv.v
theories/Prop_Gaps.v
theories/M_ParseData.v
theories/Prop_ParseData.v
theories/M_Demo.v
theories/Prop_Demo.v
theories/Prop_Gaps2.v
theories/Prop_Gaps3.v
theories/M_IoFns.v
theories/Prop_IoFns.v
theories/Prop_Strand.v
theories/Prop_Gaps4.v
theories/M_Testing.v
theories/Prop_Testing.v
theories/M_Tabs.v
theories/S_Tabs.v
theories/P_Tabs.v
theories/Prop_Tabs.v
theories/M_Listing.v
theories/Prop_Listing.v
theories/Prop_Gaps5.v
theories/Prop_Gaps6.v
theories/M_Radix.v
theories/S_Radix.v
theories/Prop_Radix.v
theories/M_Ratio.v
theories/Prop_Ratio.v
