-Q theories Verif
theories/Base.v
theories/M_Heap.v
theories/S_Heap.v
theories/L_Heap.v
theories/P_Heap.v
theories/Bytes.v
theories/M_Request.v
theories/M_Parse.v
theories/S_Request.v
theories/L_Request.v
theories/L_Validate.v
theories/L_Parse.v
theories/P_Request.v
theories/M_Credit.v
theories/S_Credit.v
theories/L_Credit.v
theories/P_Credit.v
theories/M_Stream.v
theories/S_Stream.v
theories/L_Stream.v
theories/P_Stream.v
theories/M_Codec.v
theories/S_Codec.v
theories/L_Codec.v
theories/P_Codec.v
theories/M_Util.v
theories/S_Util.v
theories/L_Util.v
theories/P_Util.v
theories/M_Rbt.v
theories/S_Rbt.v
theories/L_RbtTree.v
theories/L_RbtGen.v
theories/L_Rbt.v
theories/L_RbtIns.v
theories/L_RbtDel.v
theories/L_RbtDel2.v
theories/L_RbtDel3.v
theories/L_RbtQ.v
theories/L_RbtTop.v
theories/P_Rbt.v
theories/M_Rrbt.v
theories/S_Rrbt.v
theories/L_Rrbt.v
theories/L_RrbtTop.v
theories/P_Rrbt.v
theories/M_DStr.v
theories/S_DStr.v
theories/L_DStr.v
theories/P_DStr.v
theories/M_LHeap.v
theories/S_LHeap.v
theories/L_LHeap.v
theories/L_LHeapTop.v
theories/P_LHeap.v
theories/M_List.v
theories/S_List.v
theories/L_List.v
theories/P_List.v
theories/M_Hash.v
theories/S_Hash.v
theories/L_Hash.v
theories/L_HashTop.v
theories/L_HashTop2.v
theories/P_Hash.v
theories/M_Idx.v
theories/S_Idx.v
theories/L_Idx.v
theories/P_Idx.v
theories/M_Set.v
theories/L_SetMem.v
theories/L_SetLay.v
theories/L_SetCreate.v
theories/L_SetInit.v
theories/L_SetTop.v
theories/L_SetMake.v
theories/S_Set.v
theories/L_SetRep.v
theories/L_SetOps.v
theories/L_SetTx.v
theories/L_SetBuilt.v
theories/L_SetProp.v
theories/L_SetHist.v
theories/L_SetDesc.v
theories/L_SetMore.v
theories/P_Set.v
theories/M_Msg.v
theories/S_Msg.v
theories/L_Msg.v
theories/P_Msg.v
theories/M_Ref.v
theories/S_Ref.v
theories/L_Ref.v
theories/P_Ref.v
theories/M_Time.v
theories/S_Time.v
theories/P_Time.v
theories/M_Timer.v
theories/S_Timer.v
theories/P_Timer.v
theories/M_Task.v
theories/S_Task.v
theories/P_Task.v
theories/M_Reap.v
theories/S_Reap.v
theories/P_Reap.v
theories/M_MM.v
theories/S_MM.v
theories/L_MM.v
theories/L_MMTop.v
theories/P_MM.v
theories/M_Cmd.v
theories/S_Cmd.v
theories/L_Cmd.v
theories/P_Cmd.v
theories/M_Ev.v
theories/S_Ev.v
theories/L_Ev.v
theories/L_EvTop.v
theories/P_Ev.v
theories/M_Rail.v
theories/S_Rail.v
theories/L_Rail.v
theories/L_RailStep.v
theories/L_RailStep2.v
theories/L_RailStep3.v
theories/L_RailStep4.v
theories/L_RailStep5.v
theories/L_RailTop.v
theories/P_Rail.v
theories/M_Dir.v
theories/S_Dir.v
theories/L_Dir.v
theories/P_Dir.v
theories/M_Info.v
theories/S_Info.v
theories/L_Info.v
theories/P_Info.v
theories/M_Json.v
theories/S_Json.v
theories/L_Json.v
theories/L_JsonP.v
theories/L_JsonD.v
theories/P_Json.v
theories/M_Prdcr.v
theories/S_Prdcr.v
theories/L_Prdcr.v
theories/P_Prdcr.v
theories/M_PrdSet.v
theories/S_PrdSet.v
theories/L_PrdSet.v
theories/P_PrdSet.v
theories/M_Hint.v
theories/S_Hint.v
theories/P_Hint.v
theories/M_Record.v
theories/S_Record.v
theories/L_Record.v
theories/L_RecordOps.v
theories/P_Record.v
theories/M_TimeStr.v
theories/S_TimeStr.v
theories/L_TimeStr.v
theories/L_TimeNear.v
theories/P_TimeStr.v
theories/M_Log.v
theories/S_Log.v
theories/P_Log.v
theories/M_Updtr.v
theories/S_Updtr.v
theories/L_Updtr.v
theories/P_Updtr.v
theories/M_Strgp.v
theories/S_Strgp.v
theories/L_Strgp.v
theories/P_Strgp.v
theories/M_CsvRoll.v
theories/S_CsvRoll.v
theories/P_CsvRoll.v
theories/M_Group.v
theories/S_Group.v
theories/P_Group.v
