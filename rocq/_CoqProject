-Q theories Verif
theories/Base.v
theories/Lemmas.v
theories/M_Types.v
theories/M_Conv.v
theories/S_Conv.v
theories/P_Conv.v
theories/P_Text.v
theories/M_TpTools.v
theories/P_Float.v
theories/P_Paste.v
theories/Properties_Conv.v
theories/M_In.v
theories/P_In.v
theories/S_Doc.v
theories/M_OutOps.v
theories/S_Out.v
theories/M_Event.v
theories/P_Reads.v
theories/P_Safe.v
theories/P_Doc.v
theories/S_PSrl.v
theories/M_PSrl.v
theories/P_PSrl.v
theories/P_PSrlDoc.v
theories/P_PSrlSafe.v
theories/P_PSrlLayout.v
theories/P_PSrlMain.v
theories/Properties_PSrl.v
theories/S_MsgPack.v
theories/M_MsgPack.v
theories/P_MsgPack.v
theories/P_MsgPackDoc.v
theories/P_Exact.v
theories/P_MsgPackSafe.v
theories/P_MsgPackConf.v
theories/P_MsgPackMain.v
theories/Properties_MsgPack.v
theories/M_Heap.v
theories/S_Heap.v
theories/P_Heap.v
theories/M_Out.v
theories/S_OutJobs.v
theories/P_Out.v
theories/Properties_Out.v
theories/M_HTable.v
theories/S_HTable.v
theories/P_HTable.v
theories/Properties_HTable.v
theories/S_Charset.v
theories/M_Charset.v
theories/P_Charset.v
theories/Properties_Charset.v
theories/M_Env.v
theories/M_Json.v
theories/P_Scan.v
theories/P_JsonStr.v
theories/S_Json.v
theories/P_JsonLit.v
theories/P_JsonDoc.v
theories/S_JsonText.v
theories/P_JsonText.v
theories/P_JsonGrammar.v
theories/P_JsonRead.v
theories/P_JsonSafe.v
theories/P_JsonMain.v
theories/Properties_Json.v
theories/M_Tree.v
theories/S_Tree.v
theories/P_Tree.v
theories/P_TreeOps.v
theories/M_TreeIO.v
theories/S_TreeIO.v
theories/P_TreeIO.v
theories/P_TreeSafe.v
theories/P_Env.v
theories/Properties_Tree.v
theories/M_Object.v
theories/S_Object.v
theories/P_ObjEager.v
theories/P_ObjLazy.v
theories/S_Chars.v
theories/P_Chars.v
theories/S_ObjStore.v
theories/P_ObjStore.v
theories/M_ObjIO.v
theories/S_ObjIO.v
theories/P_FloatInt.v
theories/P_ObjIO.v
theories/P_CharsWide.v
theories/P_ObjFit.v
theories/S_Agree.v
theories/P_Agree.v
theories/P_ObjMore.v
theories/P_ObjPart.v
theories/Properties_Object.v
theories/M_Reg.v
theories/S_Reg.v
theories/P_Reg.v
theories/Properties_Reg.v
theories/M_Fpconv.v
theories/S_Fpconv.v
theories/S_FpRead.v
theories/S_FpJson.v
theories/P_FpDigits.v
theories/P_FpScale.v
theories/P_FpNear.v
theories/P_FpEmit.v
theories/P_FpRead.v
theories/P_FpJson.v
theories/Properties_Fpconv.v
theories/S_ObjSafe.v
theories/P_ObjSafe.v
theories/P_Deliver.v
theories/P_ObjUntrusted.v
theories/Properties_ObjSafe.v
theories/S_ObjEnd.v
theories/P_ObjEnd.v
theories/P_Steps.v
theories/P_Fuel.v
theories/P_ObjFinish.v
theories/Properties_ObjEnd.v
theories/Properties_Chars.v
theories/S_JsonQuoted.v
theories/P_JsonUnesc.v
theories/Properties_JsonStr.v
theories/S_Restored.v
theories/P_Restored.v
theories/P_Flat.v
theories/Properties_Restored.v
theories/M_Pack.v
theories/S_Pack.v
theories/P_Pack.v
theories/Properties_Pack.v
theories/S_Over.v
theories/P_Over.v
theories/Properties_Over.v
theories/M_Union.v
theories/S_Union.v
theories/P_Union.v
theories/S_UnionMore.v
theories/P_UnionMore.v
theories/Properties_Union.v
theories/S_Again.v
theories/P_Again.v
theories/Properties_Again.v
theories/M_Bits.v
theories/S_Bits.v
theories/P_Bits.v
theories/Properties_Bits.v
theories/M_Fail.v
theories/S_Fail.v
theories/P_Fail.v
theories/Properties_Fail.v
theories/M_Insert.v
theories/S_Insert.v
theories/P_Insert.v
theories/Properties_Insert.v
theories/M_Access.v
theories/S_Access.v
theories/P_Access.v
theories/Properties_Access.v
theories/M_Try.v
theories/S_Try.v
theories/P_Try.v
theories/Properties_Try.v
theories/M_Build.v
theories/S_Build.v
theories/P_Build.v
theories/Properties_Build.v
theories/M_HeapLife.v
theories/S_HeapLife.v
theories/P_HeapLife.v
theories/Properties_HeapLife.v
theories/S_MsgPackLang.v
theories/P_MsgPackLang.v
theories/Properties_MsgPackLang.v
theories/S_PSrlLang.v
theories/P_PSrlLang.v
theories/Properties_PSrlLang.v
theories/S_Relay.v
theories/P_Relay.v
theories/Properties_Relay.v
theories/M_Kept.v
theories/S_Kept.v
theories/P_Kept.v
theories/P_KeptLost.v
theories/Properties_Kept.v
theories/M_TreeLife.v
theories/S_TreeLife.v
theories/P_TreeLife.v
theories/Properties_TreeLife.v
theories/P_JsonReuse.v
theories/Properties_JsonReuse.v
theories/S_JsonStream.v
theories/P_JsonStream.v
theories/Properties_JsonStream.v
theories/P_StreamOnly.v
theories/S_Stream.v
theories/P_StreamSame.v
theories/Properties_Stream.v
theories/M_StrRef.v
theories/S_StrRef.v
theories/P_StrRef.v
theories/Properties_StrRef.v
theories/M_Cast.v
theories/S_Cast.v
theories/P_Cast.v
theories/Properties_Cast.v
theories/S_Evolve.v
theories/P_Evolve.v
theories/P_EvolveIO.v
theories/Properties_Evolve.v
theories/S_Null.v
theories/P_Null.v
theories/Properties_Null.v
theories/S_JsonLang.v
theories/P_JsonLang.v
theories/Properties_JsonLang.v
theories/S_Cycle.v
theories/P_Cycle.v
theories/P_NoCycle.v
theories/Properties_Cycle.v
theories/M_HTableLife.v
theories/S_HTableLife.v
theories/P_HTableLife.v
theories/Properties_HTableLife.v
theories/M_Own.v
theories/S_Own.v
theories/P_Own.v
theories/Properties_Own.v
theories/S_Nest.v
theories/P_Nest.v
theories/P_Order.v
theories/P_OrderIO.v
theories/Properties_Nest.v
theories/M_Delete.v
theories/S_Delete.v
theories/P_Delete.v
theories/Properties_Delete.v
theories/S_Round.v
theories/P_Round.v
theories/M_LongDouble.v
theories/P_LongDouble.v
theories/Properties_Round.v
theories/S_Mixed.v
theories/P_Mixed.v
theories/Properties_Mixed.v
theories/M_CStr.v
theories/P_CStr.v
theories/Properties_CStr.v
theories/M_Multi.v
theories/S_Multi.v
theories/P_Multi.v
theories/Properties_Multi.v
theories/M_Wraps.v
theories/S_Wraps.v
theories/P_Wraps.v
theories/Properties_Wraps.v
theories/M_Msg.v
theories/S_Msg.v
theories/P_Msg.v
theories/Properties_Msg.v
