-Q theories Verif
theories/PyBase.v
theories/L_Base.v
theories/M_Interval.v
theories/S_Interval.v
theories/L_Interval.v
theories/P_Interval.v
theories/M_SortedDict.v
theories/S_Dict.v
theories/L_SortedDict.v
theories/L_SortedIntervalDict.v
theories/P_SortedDict.v
theories/M_FloatInterval.v
theories/S_FloatInterval.v
theories/L_FloatInterval.v
theories/P_FloatInterval.v
theories/M_Node.v
theories/M_Tree.v
theories/S_Tree.v
theories/L_Tree.v
theories/L_Tree2.v
theories/L_Tree3.v
theories/P_Tree.v
theories/M_Note.v
theories/S_Note.v
theories/L_Note.v
theories/L_Note2.v
theories/P_Note.v
theories/M_Events.v
theories/S_Events.v
theories/L_Events.v
theories/P_Events.v
theories/M_Seq.v
theories/L_Sort.v
theories/S_Seq.v
theories/L_Seq.v
theories/P_Seq.v
theories/M_Seqs.v
theories/S_Seqs.v
theories/L_Sigs.v
theories/L_Seqs.v
theories/P_Seqs.v
theories/M_Ticks.v
theories/S_Ticks.v
theories/L_Ticks.v
theories/P_Ticks.v
theories/M_Load.v
theories/S_Load.v
theories/L_Load.v
theories/L_Load2.v
theories/L_Load3.v
theories/L_Load4.v
theories/P_Load.v
theories/M_Write.v
theories/S_Write.v
theories/L_Write.v
theories/L_Write2.v
theories/L_Write3.v
theories/L_Write4.v
theories/P_Write.v
theories/M_Reader.v
theories/S_Reader.v
theories/L_Reader.v
theories/L_Reader2.v
theories/L_Reader3.v
theories/P_Reader.v
theories/M_Chord.v
theories/M_Graph.v
theories/S_Graph.v
theories/L_Chord.v
theories/L_Chord2.v
theories/L_Chord3.v
theories/L_Graph.v
theories/L_Graph2.v
theories/L_Graph3.v
theories/L_Graph4.v
theories/L_Graph5.v
theories/L_Graph6.v
theories/L_Graph7.v
theories/L_Graph8.v
theories/L_Graph9.v
theories/L_Graph10.v
theories/P_Graph.v
theories/M_Transforms.v
theories/S_Transforms.v
theories/L_Transforms.v
theories/L_Transforms2.v
theories/P_Transforms.v
theories/M_Experiments.v
theories/S_Experiments.v
theories/L_Experiments.v
theories/L_Experiments2.v
theories/P_Experiments.v
theories/M_Utils.v
theories/S_Utils.v
theories/L_Utils.v
theories/L_Utils2.v
theories/L_Utils3.v
theories/P_Utils.v
theories/M_Scales.v
theories/S_Scales.v
theories/L_Scales.v
theories/L_Scales2.v
theories/P_Scales.v
theories/M_Dataset.v
theories/S_Dataset.v
theories/L_Dataset.v
theories/L_Dataset2.v
theories/L_Dataset3.v
theories/P_Dataset.v
theories/M_TreeSet.v
theories/S_TreeSet.v
theories/L_TreeSet.v
theories/P_TreeSet.v
theories/M_Beats.v
theories/S_Beats.v
theories/L_Beats.v
theories/L_Beats2.v
theories/L_Beats3.v
theories/L_Beats4.v
theories/L_Beats5.v
theories/P_Beats.v
theories/M_NoteExtra.v
theories/S_NoteExtra.v
theories/L_NoteExtra.v
theories/M_Freq.v
theories/S_Freq.v
theories/L_Freq.v
theories/P_NoteExtra.v
theories/M_Tempi.v
theories/S_Tempi.v
theories/L_Tempi.v
theories/S_BeatStart.v
theories/L_Tempi2.v
theories/L_Tempi3.v
theories/P_Tempi.v
theories/M_Adjust.v
theories/S_Adjust.v
theories/L_Adjust.v
theories/L_Adjust2.v
theories/L_Adjust3.v
theories/L_Adjust4.v
theories/P_Adjust.v
theories/M_EventOrder.v
theories/S_EventOrder.v
theories/L_EventOrder.v
theories/P_EventOrder.v
theories/M_Rolls.v
theories/S_Rolls.v
theories/L_Rolls.v
theories/P_Rolls.v
theories/M_Meta.v
theories/S_Meta.v
theories/L_Meta.v
theories/P_Meta.v
theories/L_Load5.v
theories/L_Reader4.v
theories/M_TreeMore.v
theories/S_TreeMore.v
theories/L_TreeMore.v
theories/P_TreeMore.v
theories/M_SeqMore.v
theories/S_SeqMore.v
theories/L_SeqMore.v
theories/P_SeqMore.v
theories/M_Float.v
theories/L_Float.v
theories/L_Float2.v
theories/L_Float3.v
theories/L_Float4.v
theories/L_Float5.v
theories/S_Float.v
theories/P_Float.v
theories/L_Graph11.v
theories/M_Song.v
theories/S_Song.v
theories/L_Song.v
theories/L_Song2.v
theories/L_Song3.v
theories/L_Song4.v
theories/L_Song5.v
theories/L_Song6.v
theories/L_Song7.v
theories/L_Song8.v
theories/L_Song9.v
theories/P_Song.v
theories/M_Pipe.v
theories/S_Pipe.v
theories/L_Pipe.v
theories/L_Pipe2.v
theories/L_Pipe3.v
theories/P_Pipe.v
theories/M_Convert.v
theories/S_Convert.v
theories/L_Convert.v
theories/L_Convert2.v
theories/L_Convert3.v
theories/L_Convert4.v
theories/P_Convert.v
theories/L_Reader6.v
theories/L_Convert5.v
theories/L_Convert6.v
theories/L_Convert7.v
theories/L_Convert8.v
theories/S_Convert2.v
theories/L_Convert9.v
theories/L_Convert10.v
theories/P_Convert2.v
theories/M_Traverse.v
theories/S_Traverse.v
theories/L_Traverse.v
theories/P_Traverse.v
theories/M_Train.v
theories/S_Train.v
theories/L_Train.v
theories/P_Train.v
theories/L_Velocity.v
theories/P_Velocity.v
theories/M_Link.v
theories/P_Link.v
theories/M_Network.v
theories/S_Network.v
theories/S_Network2.v
theories/L_Network.v
theories/L_Network2.v
theories/P_Network.v
theories/S_KeyName.v
theories/M_Download.v
theories/S_Download.v
theories/L_Download.v
theories/P_Download.v
theories/M_Builder.v
theories/S_Builder.v
theories/L_Builder.v
theories/L_Builder2.v
theories/L_Builder3.v
theories/L_Builder4.v
theories/P_Builder.v
theories/M_Checker.v
theories/S_Checker.v
theories/L_Checker.v
theories/L_Checker2.v
theories/P_Checker.v
theories/S_Decode.v
theories/L_Decode.v
theories/L_Decode2.v
theories/P_Decode.v
theories/M_Stats.v
theories/S_Stats.v
theories/P_Stats.v
theories/S_Pipe2.v
theories/L_Pipe4.v
theories/P_Pipe2.v
theories/S_Convert3.v
theories/P_Convert3.v
theories/S_Cut.v
theories/P_Cut.v
theories/M_SaveSeq.v
theories/S_SaveSeq.v
theories/L_SaveSeq.v
theories/P_SaveSeq.v
theories/M_Rescale.v
theories/S_Rescale.v
theories/L_Rescale.v
theories/P_Rescale.v
theories/M_Snap.v
theories/S_Snap.v
theories/L_Snap.v
theories/P_Snap.v
theories/P_Tighten.v
theories/P_Tighten2.v
theories/P_Tighten3.v
theories/P_Tighten4.v
theories/M_NodeVerify.v
theories/S_NodeVerify.v
theories/P_NodeVerify.v
theories/M_GraphF.v
theories/S_GraphF.v
theories/L_GraphF.v
theories/P_GraphF.v
theories/S_Rounding.v
theories/P_Rounding.v
theories/M_SplitF.v
theories/S_SplitF.v
theories/P_SplitF.v
theories/M_NoteF.v
theories/L_NoteF.v
theories/L_NoteF2.v
theories/P_NoteF.v
theories/L_Convert11.v
theories/P_Convert4.v
theories/P_Tighten5.v
theories/M_NoteJson.v
theories/S_NoteJson.v
theories/L_NoteJson.v
theories/P_NoteJson.v
theories/M_Synth.v
theories/S_Synth.v
theories/L_Synth.v
theories/P_Synth.v
theories/M_Evaluate.v
theories/S_Evaluate.v
theories/P_Evaluate.v
theories/M_FromFile.v
theories/P_FromFile.v
theories/P_NoteF2.v
theories/M_NoteName.v
theories/S_NoteName.v
theories/L_NoteName.v
theories/P_NoteName.v
theories/M_ShiftF.v
theories/S_ShiftF.v
theories/L_ShiftF.v
theories/P_ShiftF.v
theories/M_UtilsF.v
theories/S_UtilsF.v
theories/L_UtilsF.v
theories/L_UtilsF2.v
theories/L_UtilsF3.v
theories/L_UtilsF4.v
theories/P_UtilsF.v
theories/S_Drop.v
theories/P_Tighten6.v
theories/M_Connect.v
theories/S_Connect.v
theories/L_Connect.v
theories/L_Connect2.v
theories/P_Connect.v
theories/M_BeatsF.v
theories/S_BeatsF.v
theories/L_BeatsF.v
theories/L_BeatsF2.v
theories/L_BeatsF3.v
theories/L_BeatsF4.v
theories/L_BeatsF5.v
theories/L_BeatsF6.v
theories/P_BeatsF.v
theories/S_BeatsF2.v
theories/L_BeatsF7.v
theories/L_BeatsF8.v
theories/L_BeatsF9.v
theories/L_BeatsF10.v
theories/P_BeatsF2.v
theories/L_Song10.v
theories/P_Tighten7.v
theories/L_BeatsF11.v
theories/M_AdjustF.v
theories/S_AdjustF.v
theories/L_AdjustF.v
theories/L_AdjustF2.v
theories/L_AdjustF3.v
theories/P_AdjustF.v
theories/L_BeatsF12.v
theories/P_Tighten8.v
theories/S_AdjustF2.v
theories/L_AdjustF4.v
theories/P_AdjustF2.v
theories/M_TempoF.v
theories/S_TempoF.v
theories/L_TempoF.v
theories/P_TempoF.v
theories/M_ReportF.v
theories/L_ReportF.v
theories/P_ReportF.v
theories/L_Resave.v
theories/P_Resave.v
theories/P_Tighten9.v
theories/M_SongF.v
theories/S_SongF.v
theories/L_SongF.v
theories/L_SongF2.v
theories/P_SongF.v
theories/L_SongF3.v
theories/P_Tighten10.v
theories/L_SongF4.v
theories/P_SongTempo.v
theories/L_SongF5.v
theories/L_SongF6.v
