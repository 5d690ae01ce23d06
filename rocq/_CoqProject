-Q theories Verif

theories/M_Base.v
theories/M_Util.v
theories/M_Num.v
theories/M_Scan.v
theories/M_Value.v
theories/M_Path.v
theories/M_Valid.v
theories/M_Pretty.v
theories/M_Opts.v
theories/M_Get.v
theories/Tests.v
theories/S_Json.v
theories/P_Base.v
theories/P_Json.v
theories/P_Valid.v
theories/P_ValidSpec.v
theories/S_Str.v
theories/P_Str.v
theories/P_Utf8.v
theories/P_Glob.v
theories/P_Scan.v
theories/P_Each.v
theories/P_Doc.v
theories/P_Path.v
theories/P_LGet.v
theories/P_Parts.v
theories/P_Ugly.v
theories/P_Pretty.v
theories/S_Tree.v
theories/P_Tree.v
theories/P_PTree.v
theories/P_POut.v
theories/S_Layout.v
theories/P_Layout.v
theories/S_Opts.v
theories/P_Opts.v
theories/P_Wf.v
theories/S_Get.v
theories/P_Value.v
theories/P_Num.v
theories/P_Ord.v
theories/P_Ext.v
theories/P_Good.v
theories/S_Panic.v
theories/P_Total.v
theories/S_Api.v
theories/S_Path.v
theories/S_Query.v
theories/P_Key.v
theories/P_Find.v
theories/P_GetDoc.v
theories/P_Reach.v
theories/P_GetArr.v
theories/P_Sub.v
theories/P_Pipe.v
theories/P_Stream.v
theories/S_Follow.v
theories/P_Follow.v
theories/P_Query.v
theories/S_Num.v
theories/P_Float.v
theories/P_QNum.v
theories/P_Closed.v
theories/S_Taken.v
theories/P_Taken.v
theories/P_GetUtf8.v
theories/S_Mod.v
theories/P_Mod.v
theories/S_PrettyArg.v
theories/P_ModDoc.v
theories/P_ModPretty.v
theories/P_GetMod.v
theories/S_Alike.v
theories/P_Rel.v
theories/P_GetValid.v
theories/S_Join.v
theories/P_ModFlat.v
theories/P_ModJoin.v
theories/S_Multi.v
theories/P_Multi.v
theories/P_MultiDoc.v
theories/Properties_Valid.v
theories/Properties_Str.v
theories/Properties_Pretty.v
theories/Properties_Value.v
theories/S_Conv.v
theories/P_Conv.v
theories/P_Order.v
theories/Properties_Conv.v
theories/Properties_Total.v
theories/Properties_Get.v
theories/Properties_Query.v
theories/Properties_Path.v
theories/Properties_Closed.v
theories/Properties_Same.v
theories/Properties_Mod.v
theories/Properties_Multi.v
theories/Properties_Entry.v
theories/S_Same.v
theories/P_Sim.v
theories/P_Lines.v
theories/Properties_Parse.v
theories/S_Eval.v
theories/P_Eval.v
theories/S_Open.v
theories/P_Open.v
theories/Properties_Open.v
theories/Properties_Eval.v
theories/S_ModText.v
theories/P_ModText.v
theories/Properties_ModText.v
theories/S_Compose.v
theories/P_Compose.v
theories/P_Mixed.v
theories/Properties_Compose.v
theories/S_Float.v
theories/P_FloatText.v
theories/S_Truth.v
theories/P_Truth.v
theories/Properties_Truth.v
theories/S_Decode.v
theories/P_Decode.v
theories/Properties_Decode.v
theories/S_Then.v
theories/S_Run.v
theories/P_Then.v
theories/P_Run.v
theories/Properties_Run.v
theories/Properties_Then.v
theories/P_Tail.v
theories/S_Bad.v
theories/P_Bad.v
theories/Properties_Bad.v
theories/P_Again.v
theories/Properties_Again.v
theories/P_Spell.v
theories/S_Entry.v
theories/P_Entry.v
theories/S_Head.v
theories/P_Head.v
theories/Properties_Head.v
theories/S_Means.v
theories/P_First.v
theories/P_Seek.v
theories/P_Means.v
theories/Properties_Means.v
theories/Properties_Opts.v
theories/P_F32.v
theories/Properties_F32.v
theories/S_Laws.v
theories/P_Laws.v
theories/Properties_Laws.v
theories/P_Agree.v
theories/Properties_Agree.v
theories/S_Rough.v
theories/P_Rough.v
theories/Properties_Rough.v
theories/S_Said.v
theories/P_Said.v
theories/P_Blind.v
theories/Properties_Said.v
theories/S_Shuffle.v
theories/P_Shuffle.v
theories/P_Steady.v
theories/Properties_Shuffle.v
theories/P_Keep.v
theories/P_KeepMod.v
theories/S_Orderly.v
theories/P_Orderly.v
theories/P_Bytes.v
theories/S_Drawn.v
theories/P_Drawn.v
theories/Properties_Orderly.v
theories/S_Filter.v
theories/P_Filter.v
theories/Properties_Filter.v
theories/S_Look.v
theories/P_Look.v
theories/Properties_Look.v
theories/S_ModAny.v
theories/P_ModAny.v
theories/Properties_ModAny.v
theories/S_Lead.v
theories/P_Lead.v
theories/Properties_Lead.v
theories/S_Sloppy.v
theories/P_Sloppy.v
theories/Properties_Sloppy.v
theories/S_Canon.v
theories/P_Canon.v
theories/Properties_Canon.v
theories/S_Frame.v
theories/P_Frame.v
theories/Properties_Frame.v
theories/M_Show.v
theories/S_Show.v
theories/P_Show.v
theories/Properties_Show.v
theories/S_Select.v
theories/P_Select.v
theories/Properties_Select.v
theories/P_Turn.v
theories/Properties_Turn.v
theories/S_Merge.v
theories/P_Merge.v
theories/Properties_Merge.v
theories/P_Deep.v
theories/P_Mono.v
theories/Properties_Mono.v
theories/P_Either.v
theories/Properties_Either.v
theories/P_Fit.v
theories/Properties_Fit.v
