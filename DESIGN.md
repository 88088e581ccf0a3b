# Formal model of neural-graph-composer in Rocq (Coq 8.16.1)

## Layout
* `rocq/theories/PyBase.v`, `M_*.v` — executable Gallina model, one file per source module, no proofs.
  Each definition cites the file and lines of /repo it models and any simplification.
* `rocq/theories/S_*.v` — small specifications, independent of the model's helpers.
* `rocq/theories/L_*.v` — lemmas.
* `rocq/theories/P_*.v` — the property theorems only, each closed by `exact` (or a few lines),
  followed by `Print Assumptions`, with a non-vacuity `Example` beside it. The comment before a
  theorem names its property.
* `tools/manifest.py` regenerates MANIFEST.json from the P files; `tools/design.py` the table below;
  `tools/coverage.py` lists the functions of /repo no model file cites.

## Modelling choices
* A Python exception is a value (`Err e` of type `res`); a call that can change state returns
  `(result, state)`, also when it raises: what was changed before the exception stays changed.
* Times. Modules that only compare times (intervals, interval trees) use `Z`: every finite double is an
  integer multiple of 2^-1074, so comparisons, min and max are exact. Modules that calculate with times
  (quantisation, tempo maps, stretching, normalisation) use exact rationals `Q`. Rounding of floating-point
  operations, NaN, infinities and -0.0 are **not** modelled there: theorems with sums, products or quotients
  speak about the exact results. Exception: M_Float models the tempo map and the tick/second conversions with
  every operation rounded to 53 bits, ties to even (unbounded exponent), and C158-C161 are about doubles.
* `math.isclose(a,b)` is |a-b| <= max(1e-9*max(|a|,|b|), abs_tol) in exact arithmetic.
* Integers are unbounded `Z`, as in Python. Strings are Coq strings (bytes); `upper` is ASCII upper case.
* Random draws, iteration orders of sets and frozensets, hash functions, file contents and answers of
  external libraries are arguments (oracles) of the model functions, and theorems quantify over all of
  them; hypotheses on an oracle (e.g. "shuffle returns a permutation") are in the theorem's statement.
* Python recursion is structural or by fuel; where fuel is used (tree removal) theorems hold for every fuel
  or the fuel is proved sufficient.
* Object identity is modelled only where aliasing is visible (shared lists in sequences and graphs are
  values; where the code shares a mutable object the comment says so).

## Trusted base
1. Coq 8.16.1's kernel (with `vm_compute` in Examples and a few finite-table lemmas). No checks are switched off,
   no plugins are used beyond the standard ones (`lia`, `lra`, `nra`), no `Axiom`, `Parameter`, `Admitted`,
   functor or module type is used.
2. `Print Assumptions` answers **"Closed under the global context"** for every theorem of every P file, except the
   four theorems of C128 (frequencies, `C128_equal_temperament`, `C128_pitch`, `C128_four_eighth`, `C128_four_eighth_exact`),
   `C181_link` and the theorems of C182-C185 (neural network: `sig_forall_dec` and functional extensionality only), which use the real
   numbers of the standard library and list its axioms `ClassicalDedekindReals.sig_not_dec`,
   `ClassicalDedekindReals.sig_forall_dec`, `FunctionalExtensionality.functional_extensionality_dep` and
   `Classical_Prop.classic`. No other theorem depends on an axiom. (For these the build checker also lists the opaque
   constants of `Coq.Reals.Rdefinitions` - `RbaseSymbolsImpl.R`, `R0`, `Rplus`, ... - which the standard library
   defines behind a module type: they are definitions, not axioms.) (The build checker lists seven constants of `Coq.ssr.ssrunder`: they are fields of
   module types in a standard library file that is merely loaded; nothing depends on them.)
3. The faithfulness of the `M_*.v` files to /repo, i.e. the reading of the Python source, including these parts
   of Python and its libraries written out by hand: `bisect`, `sorted`/`list.sort` (stable insertion sort),
   `OrderedDict`/`dict` as association lists in insertion order, `collections.abc.MutableSet` mixins,
   the order of `mido` messages in a track, networkx (multi)graph mutation, `torch` indexing.
4. The statements in `P_*.v` together with the specs in `S_*.v`.

## What is modelled, and what is not
Modelled (file: model): `midi/Interval.py`: M_Interval; `midi/sorted_dict.py`, `sorted_interval_dict.py`:
M_SortedDict; `interval/interval.py`: M_FloatInterval; `interval/node.py`, `intervaltree.py`: M_Node,
M_Tree, M_TreeSet, M_TreeMore, M_NodeVerify; `midi/midi_note.py`: M_Note, M_NoteExtra, M_Freq; control changes, pitch bends, instruments, tempo, time and
key signatures: M_Events, M_EventOrder, M_TempoF (tempo conversions, also of midi_utils.py, in double precision), M_ReportF (get_tempo_changes in double precision), M_SongF (loading and serializing a whole piece in double precision); `midi/midi_sequence.py`: M_Seq, M_SeqMore, with `midi/callbacks.py` M_SaveSeq (saving one track); `midi/midi_sequences.py`: M_Seqs;
`custom_pretty_midi.py`: M_Ticks (tick/time maps), M_Float (the same tick/time maps and the tempo written, with every operation rounded to 53 bits), M_Load (reading tracks), M_Write (writing), M_Beats (beats), M_BeatsF (beats in double precision), M_AdjustF (adjust_times in double precision: numpy.interp, notes, events, signatures, tempo list and tick scales with every operation rounded), M_Tempi (tempo estimates), M_Adjust (adjust_times; downbeats, tick snapping and the tempo list are arguments), M_Meta (from_file: tempo map, signatures, lyrics), M_Song (serialize and from_file of whole pieces in seconds; mido's field checks and pretty_midi's key names by their documentation), M_Rolls (piano roll, chroma, pitch class statistics over instrument matrices);
`midi_reader.py`: M_Reader, M_Pipe (reading a file, on top of M_Song), M_Convert (to_pretty_midi and write in full, with adjust_times on a whole piece); `midi_graph_builder.py`: M_Chord, M_Graph, M_Builder (constructors, building from an object); `transforms.py`: M_Transforms;
`midi_dataset.py`: M_Dataset, M_Download (gathering listed files), M_Stats (statistics); `utils.py`, `midi/midi_utils.py`: M_Utils; `midi/midi_scales.py`: M_Scales;
`ngc_shared.py`: M_Experiments; `example03_lstm.py` (dijkstra_traversal2): M_Traverse; `ngc_small_graph.py` (velocity helpers): M_Rescale; compute_data in double precision: M_Snap; build_sequence and build in double precision: M_GraphF; split sizes in double precision: M_SplitF; `midi_note.py` (MidiNoteJSONDecoder): M_NoteJson; `custom_pretty_midi.py` (synthesize, fluidsynth: the mix of given waveforms): M_Synth; the two from_file constructors: M_FromFile; names of notes (librosa by its documentation): M_NoteName; shifting and stretching in double precision: M_ShiftF; connect_instruments: M_Connect; the stand-alone quantisers of midi_utils.py in double precision (with check_quantization): M_UtilsF; the test functions of `example02.py`, `ngc_example05_gin.py`, `example04_gae.py` and evaluate of `example01_node_classification.py`: M_Evaluate; note quantisation in double precision: M_NoteF; the constructors of the trainers, and `minimum_example_node_classification.py`: M_Train (test, trainer), M_Network (the network in evaluation mode); `example04_gae.py` (predict_link): M_Link; `example_read_complex_midi.py` (the checks) and `ngc_small_graph.py` (the reverse check): M_Checker.

Not modelled: plotting and printing (`print_structure`, `visualize`, `plot_metrics`, `__repr__`/`__str__` unless a
property names them), audio synthesis of one instrument (pretty_midi),
downloads from a server, gradients and training steps, the other neural networks (the rest of `example0*.py`, `ngc_small_graph.py`, ...), logging, pickling
formats, abstract base classes, the functions `tools/coverage.py` lists. Methods of `FloatIntervalTree` that
always raise `NameError` because they use the undefined names `Interval`/`IntervalTree` (`copy`, `union`,
`difference`, `intersection`, `symmetric_difference`, `addi`, `from_tuples`, ...) are mentioned in C115 only.

Where the code does not do what its documentation says, the property is stated as what holds, and the
theorem is about that actual behaviour, for all inputs.

## Testing the theorems
`seeded/LOG.jsonl` records edits of the model in the way of realistic bugs and the theorems that failed.
Hand-picked edits recompile everything and list the property theorems that no longer hold; a second, automatic
pass mutates operators, constants and exceptions across all model files. A surviving edit is either
equivalent (recorded as such) or led to a tightened theorem.

## Plan per property
<!-- table -->
Property | title | files | method | theorems
---|---|---|---|---
C01 | Closed interval overlap and intersection agree with point sets | M_/P_Interval | arithmetic on closed intervals | interval_overlap_iff_common_point, interval_overlap_symmetric, interval_intersection_exact
C02 | Interval union is the hull, and the point-set union when intervals overlap | M_/P_Interval | arithmetic on closed intervals | interval_union_is_hull, interval_union_exact_when_overlapping, interval_union_point_set_refuted
C03 | Interval ordering is a strict total order compatible with equality and hash | M_/P_Interval | arithmetic on closed intervals | interval_order_strict_total, interval_le_and_hash, interval_order_lexicographic
C04 | SortedDict behaves as a finite map iterated in ascending key order | M_/P_SortedDict | refinement to a finite map, induction over call lists | sorted_dict_is_sorted_map, sorted_dict_errors
C05 | SortedIntervalDict slicing selects exactly the overlapping entries; deletion never succeeds | M_/P_SortedDict, M_/P_Tighten6 | refinement to a finite map, induction over call lists; list and arithmetic lemmas | sorted_interval_dict_lookup, sorted_interval_dict_slice, sorted_interval_dict_never_deletes, C05_delete_slice
C06 | FloatInterval ordering and equality form a strict total order | M_/P_FloatInterval | arithmetic and order laws | float_interval_order_strict_total, float_interval_order_lexicographic
C07 | FloatInterval point and range queries: what they decide | M_/P_FloatInterval | arithmetic and order laws | float_interval_contains_point_exact, float_interval_overlaps_exact, float_interval_queries_refuted, float_interval_long_is_ordinary, float_interval_overlap_size
C08 | FloatInterval containment, distance and length algebra | M_/P_FloatInterval, M_/P_Tighten6 | arithmetic and order laws; list and arithmetic lemmas | float_interval_containment_is_inclusion, float_interval_containment_order, float_interval_length_nonneg, float_interval_distance, float_interval_distance_to_point, float_interval_comparisons, C08_any_point
C09 | FloatInterval copy and pickle round-trip | M_/P_FloatInterval | arithmetic and order laws | float_interval_copy_roundtrip
C10 | FloatIntervalTree has set semantics for membership and length | M_/P_Tree | invariant over call histories, AVL invariant | tree_set_semantics, tree_call_outcomes
C11 | Tree boundaries, begin, end and span track the members | M_/P_Tree | invariant over call histories, AVL invariant | tree_boundaries
C12 | Interval tree stays a balanced search tree holding exactly its members under insertion | M_/P_Tree | invariant over call histories, AVL invariant | tree_insertions_balanced
C13 | Removing members from the tree | M_/P_Tree | invariant over call histories, AVL invariant | tree_remove_always_raises
C14 | MidiNote construction clamps or rejects every field | M_/P_Note | arithmetic; invariant over setter histories | C14_note_construction, C14_ranges_invariant
C15 | MidiNote time setters preserve start < end | M_/P_Note | arithmetic; invariant over setter histories | C15_start_setter, C15_end_setter, C15_setters_keep_valid
C16 | MidiNote equality and order laws | M_/P_Note | arithmetic; invariant over setter histories | C16_eq_reflexive_symmetric, C16_eq_not_transitive, C16_lt_means, C16_lt_irreflexive_asymmetric, C16_lt_transitive_when_separated, C16_lt_not_transitive, C16_le_means
C17 | MidiNote overlap means sharing an instant | M_/P_Note | arithmetic; invariant over setter histories | C17_overlap_is_shared_instant, C17_overlap_symmetric
C18 | Quantising a time to the nearest step is bounded and monotone | M_/P_Note | arithmetic; invariant over setter histories | C18_step_total_and_nonnegative, C18_step_monotone, C18_step_near
C19 | Quantising a note succeeds, keeps it valid and moves it by a bounded amount | M_/P_Note, M_/P_NoteExtra | arithmetic; invariant over setter histories; arithmetic of rationals and (frequencies) reals | C19_quantised_note_valid, C19_quantisation_succeeds, C19_min_step, C19_empty_note
C20 | Copying a note yields an equal note | M_/P_Note | arithmetic; invariant over setter histories | C20_copy
C21 | Shifting and stretching notes | M_/P_Note | arithmetic; invariant over setter histories | C21_shift, C21_stretch
C22 | Control changes: construction clamps, quantisation never succeeds | M_/P_Events | arithmetic, order laws, invariant over constructions | C22_cc_ranges, C22_cc_quantize_always_raises
C23 | Pitch bends are accepted exactly in range | M_/P_Events | arithmetic, order laws, invariant over constructions | C23_bend_accepts, C23_bend_setters
C24 | Instrument descriptors round-trip and naming is total | M_/P_Events | arithmetic, order laws, invariant over constructions | C24_default_name, C24_round_trip, C24_eq_hash
C25 | Tempo conversions | M_/P_Events | arithmetic, order laws, invariant over constructions | C25_tempo, C25_tempo_to_qpm, C25_bpm_qpm_round_trip, C25_steps_per_second
C26 | A sequence's total time bounds all its notes | M_/P_Seq | invariant over call histories, list lemmas | C26_total_bounds_notes, C26_add_note, C26_add_history, C26_extend, C26_append
C27 | Truncating a sequence keeps exactly the notes ending in time | M_/P_Seq | invariant over call histories, list lemmas | C27_truncate
C28 | Slicing a sequence keeps exactly the notes that start in the window | M_/P_Seq | invariant over call histories, list lemmas | C28_slice, C28_slice_errors
C29 | Merging sequences loses and invents no notes | M_/P_Seq | invariant over call histories, list lemmas | C29_merge, C29_merge_sorted
C30 | Concatenation, extraction and splitting of sequences never succeed on real content | M_/P_Seq | invariant over call histories, list lemmas | C30_add_never_concatenates, C30_extract_never_extracts, C30_quantised_or_empty_raises, C30_split_always_raises
C31 | Shifting and stretching a whole sequence act uniformly | M_/P_Seq | invariant over call histories, list lemmas | C31_shift, C31_stretch
C32 | Track creation and lookup | M_/P_Seqs | invariant over call histories, sortedness | C32_create_track, C32_get_track, C32_subscript_read
C33 | Signature lists stay sorted and have one signature at time zero | M_/P_Seqs | invariant over call histories, sortedness | C33_signature_list
C34 | Looking up the signature in force at a time | M_/P_Seqs | invariant over call histories, sortedness | C34_signature_lookup, C34_key_lookup
C35 | Building a multi-track object from a list of sequences preserves notes | M_/P_Seqs | invariant over call histories, sortedness | C35_from_sequences
C36 | Tick times sum the tick durations of the tempo map | M_/P_Ticks | induction over tempo changes | C36_loaded, C36_scratch, C36_increasing
C37 | Time-to-tick is a nearest-tick inverse | M_/P_Ticks | induction over tempo changes | C37_loaded, C37_scratch
C38 | Delta and absolute ticks round-trip | M_/P_Load | induction over messages with a simulation of note pairing | C38_ticks
C39 | Tempo events of the first track become a clean tempo map | M_/P_Ticks | induction over tempo changes | C39_tempo_map
C40 | Which notes a loaded track has | M_/P_Load | induction over messages with a simulation of note pairing | C40_notes, C40_instruments
C41 | Event order on serialisation | M_/P_Write | induction over events; inverse of loading | C41_order, C41_release_first
C42 | Reading a file: tracks and notes | M_/P_Reader | induction over notes | C42_tracks, C42_ascending, C42_lost, C42_too_many
C43 | Reading a file: controller events | M_/P_Reader | induction over notes | C43_controllers
C44 | Grouping notes by time partitions them | M_/P_Graph | invariant over chord lists | C44_groups, C44_partition, C44_unique, C44_close, C44_negative, C44_tolerance
C45 | Graph edges count transitions | M_/P_Graph | invariant over chord lists | C45_fresh, C45_onto, C45_total
C46 | The built graph is connected and labelled | M_/P_Graph | invariant over chord lists | C46_succeeds, C46_attributes, C46_connected, C46_stays_connected
C47 | Class indices are a dense bijection | M_/P_Graph | invariant over chord lists | C47_numbered, C47_stable, C47_recorded, C47_notes_to_hash
C48 | Chord chunking respects the feature size | M_/P_Graph | invariant over chord lists | C48_chunks
C49 | Rescaled velocities stay in range and keep order | M_/P_Graph | invariant over chord lists | C49_range, C49_linear, C49_equal, C49_single
C50 | Feature tensors have fixed shape and content | M_/P_Graph | invariant over chord lists | C50_pitches, C50_velocities, C50_one_hot, C50_errors
C51 | Iterating built graphs yields the first graph only | M_/P_Graph | invariant over chord lists | C51_first_only, C51_nothing, C51_next_only, C51_sanity
C52 | Split masks partition the nodes | M_/P_Dataset, M_/P_Tighten4 | list and permutation lemmas; crash points as prefixes of write lists; list and arithmetic lemmas | C52_masks, C52_any_sizes, C52_arguments, C52_errors
C53 | Node hash index mapping is a stable bijection | M_/P_Dataset, M_/P_Tighten5 | list and permutation lemmas; crash points as prefixes of write lists; list and arithmetic lemmas | C53_bijection, C53_total, C53_stable, C53_unknown
C54 | Processing stores the same graphs in both processed files | M_/P_Dataset | list and permutation lemmas; crash points as prefixes of write lists | C54_same
C55 | The degree transform appends out-degrees | M_/P_Transforms | list and matrix lemmas | C55_degree, C55_reshape, C55_range
C56 | Dropping nodes | M_/P_Tighten6, M_/P_Transforms | list and arithmetic lemmas; list and matrix lemmas | C56_halfway, C56_drop, C56_any_p, C56_filter_adj, C56_numbers
C57 | Dropping edges | M_/P_Transforms | list and matrix lemmas | C57_drop, C57_missing, C57_labels, C57_pos_neg, C57_attribute
C58 | One-hot rows | M_/P_Tighten6, M_/P_Transforms | list and arithmetic lemmas; list and matrix lemmas | C58_depth, C58_rows, C58_range
C59 | Threshold quantiser | M_/P_Utils | arithmetic | C59_rounds, C59_errors, C59_documented, C59_nearest, C59_truncates, C59_monotone
C60 | Vector quantisation picks a nearest grid value | M_/P_Utils | arithmetic | C60_nearest, C60_empty, C60_idempotent
C61 | Compound intervals round-trip | M_/P_Scales | finite tables lifted to all arguments, modular arithmetic | C61_inverse, C61_to_base, C61_from_base
C62 | Scales follow their steps on every root | M_/P_Scales | finite tables lifted to all arguments, modular arithmetic | C62_notes, C62_accepted, C62_transpose, C62_tables, C62_intervals
C63 | Pitch naming | M_/P_Scales | finite tables lifted to all arguments, modular arithmetic | C63_name, C63_injective
C64 | Loading restores the checkpoint of the greatest epoch | M_/P_Experiments, M_/P_Tighten | list lemmas; list and arithmetic lemmas | C64_C98_latest, C64_none, C64_save, C64_names, C64_ignored, C64_foreign
C65 | Removing nodes | M_/P_Transforms | list and matrix lemmas | C65_remove, C65_ratio
C66 | Point and range queries on the interval tree never find a member | M_/P_Tree | invariant over call histories, AVL invariant | tree_point_queries_refuted, tree_slices
C67 | Merging never merges intervals of a tree | M_/P_Tree | invariant over call histories, AVL invariant | tree_merge_overlaps_never_merges, tree_merge_others_never_merge, tree_merge_conditions
C68 | Constructing a tree from a collection | M_/P_Tree | invariant over call histories, AVL invariant | tree_constructor, tree_constructor_rejects_null, tree_constructor_near_interval_never_returns
C69 | Time signatures: acceptance and beats per measure | M_/P_Events | arithmetic, order laws, invariant over constructions | C69_time_signature_accepts, C69_beats_per_measure
C70 | Copying a control change forgets its drum flag and step | M_/P_Events | arithmetic, order laws, invariant over constructions | C70_cc_copy
C71 | Quantising a sequence | M_/P_Seq | invariant over call histories, list lemmas | C71_quantise_fails_with_controllers, C71_quantise_succeeds, C71_quantise_step_counter
C72 | Cloning a sequence | M_/P_Seq | invariant over call histories, list lemmas | C72_clone
C73 | Inserting into and cutting a sequence | M_/P_Seq | invariant over call histories, list lemmas | C73_insert, C73_cut
C74 | Pitch sequence of a sequence | M_/P_Seq | invariant over call histories, list lemmas | C74_as_note_seq
C75 | Smallest step between notes | M_/P_Seq | invariant over call histories, list lemmas | C75_min_step
C76 | Signature slices | M_/P_Seqs | invariant over call histories, sortedness | C76_slices
C77 | Assigning a track and reading it back | M_/P_Seqs | invariant over call histories, sortedness | C77_assign_then_read, C77_from_notes
C78 | initial_tempo | M_/P_Seqs | invariant over call histories, sortedness | C78_initial_tempo, C78_initial_tempo_frozen
C79 | truncate and is_sorted on a multi-track object | M_/P_Seqs | invariant over call histories, sortedness | C79_truncate_all, C79_is_sorted
C80 | get_tempo_changes reports the tempo in force | M_/P_Ticks | induction over tempo changes | C80_tempo_report
C81 | Which controllers a loaded instrument has | M_/P_Load | induction over messages with a simulation of note pairing | C81_controllers
C82 | Loaded tracks have no overlapping notes | M_/P_Load | induction over messages with a simulation of note pairing | C82_cut
C83 | Writing and loading an instrument preserves it | M_/P_Write | induction over events; inverse of loading | C83_round_trip
C84 | Writing and loading preserves the tempo, in exact arithmetic | M_/P_Write | induction over events; inverse of loading | C84_tempo_round_trip
C85 | Channel assignment on writing | M_/P_Write | induction over events; inverse of loading | C85_channels, C85_reject
C86 | Converting back or writing needs to_end | M_/P_Reader | induction over notes | C86_convert, C86_write, C86_exists, C86_arguments
C87 | Reading and converting back | M_/P_Reader | induction over notes | C87_back
C88 | Chords are visited by the hash of their time, not by time | M_/P_Graph | invariant over chord lists | C88_hash_order, C88_visits
C89 | Tolerance and velocity buckets do not influence the graph | M_/P_Graph | invariant over chord lists | C89_irrelevant, C89_invalid
C90 | One graph per instrument or one for all | M_/P_Graph | invariant over chord lists | C90_per_instrument, C90_whole, C90_succeeds
C91 | Edge index and weights of a graph | M_/P_Graph | invariant over chord lists | C91_edge_index
C92 | Connection queries and their direction | M_/P_Graph | invariant over chord lists | C92_is_connected, C92_get_edge, C92_sets
C93 | Merging nodes | M_/P_Graph | invariant over chord lists | C93_merge, C93_missing
C94 | Notes that cannot be encoded | M_/P_Graph | invariant over chord lists | C94_pitch_127, C94_negative_start
C95 | One-hot piano roll | M_/P_Transforms | list and matrix lemmas | C95_roll, C95_none
C96 | Train/test split of a dataset | M_/P_Transforms | list and matrix lemmas | C96_split, C96_ratio
C97 | Metrics are written under wrong names and never restored | M_/P_Experiments | list lemmas | C97_not_restored, C97_cwd, C97_train_file, C97_test_file, C97_val_file, C97_val_no_dir, C97_lists, C97_when, C97_clear
C98 | An interrupted save blocks loading | M_/P_Experiments | list lemmas | C64_C98_latest
C99 | Frame indices of an event | M_/P_Utils | arithmetic | C99_cover, C99_errors, C99_occupied
C100 | Quantising to steps of a measure | M_/P_Utils | arithmetic | C100_multiple, C100_error, C100_idempotent, C100_monotone
C101 | Grid quantisation of a note | M_/P_Utils | arithmetic | C101_drift, C101_aligned, C101_bounded, C101_order, C101_errors
C102 | Interpolating quantiser mixes units | M_/P_Utils | arithmetic | C102_offset, C102_value, C102_snap
C103 | Decimal quantiser | M_/P_Utils | arithmetic | C103_nearest, C103_positive, C103_zero
C104 | Tempo conversions | M_/P_Utils | arithmetic | C104_agree, C104_rounded
C105 | Chord pitches from intervals | M_/P_Scales | finite tables lifted to all arguments, modular arithmetic | C105_pitches, C105_rejects, C105_case
C106 | Chord naming inverts chord lookup | M_/P_Scales | finite tables lifted to all arguments, modular arithmetic | C106_sound, C106_complete, C106_agree
C107 | Triads of a scale | M_/P_Scales | finite tables lifted to all arguments, modular arithmetic | C107_triads, C107_quality, C107_rejects
C108 | Interval arithmetic | M_/P_Scales | finite tables lifted to all arguments, modular arithmetic | C108_from_semitones, C108_compound, C108_inverse
C109 | Chords by name | M_/P_Scales | finite tables lifted to all arguments, modular arithmetic | C109_chord, C109_rejects, C109_empty, C109_extended, C109_list
C110 | Conversion to PyG needs numeric node features | M_/P_Dataset, M_/P_Tighten, M_/P_Tighten2 | list and permutation lemmas; crash points as prefixes of write lists; list and arithmetic lemmas; list and arithmetic lemmas | C110_converts, C110_never, C110_built, C110_mixed, C110_errors, C110_merged
C111 | What a processed dataset holds | M_/P_Dataset | list and permutation lemmas; crash points as prefixes of write lists | C111_contents
C112 | Processing can be interrupted and repeated | M_/P_Dataset | list and permutation lemmas; crash points as prefixes of write lists | C112_crash
C113 | At this commit no dataset is ever processed | M_/P_Dataset | list and permutation lemmas; crash points as prefixes of write lists | C113_real, C113_sanity, C113_missing, C113_skipped
C114 | Processed files are identified by three options only | M_/P_Dataset | list and permutation lemmas; crash points as prefixes of write lists | C114_names, C114_distinct, C114_cached, C114_fresh
C115 | Interval trees obey set algebra | M_/P_TreeSet | invariant over histories of several trees | tree_operators, tree_inplace_operators, tree_after_operators, tree_operator_len
C116 | Interval trees compare as sets, and pop removes one member | M_/P_TreeSet | invariant over histories of several trees | tree_comparisons, tree_pop
C117 | The named in-place updates work only when nothing has to go | M_/P_TreeSet | invariant over histories of several trees | tree_intersection_update, tree_symmetric_difference_update
C118 | Range operations depend on whether anything was ever added | M_/P_Tighten3, M_/P_TreeSet | list and arithmetic lemmas; invariant over histories of several trees | C118_verify_insertions, C118_verify_discarded, tree_ranges_untouched, tree_ranges_touched, tree_at_interval, tree_split_overlaps
C119 | Chord tables spell the chords their symbols name | M_/P_Scales | finite tables lifted to all arguments, modular arithmetic | C119_steps, C119_mapping, C119_symbols
C120 | Interval names have their music-theoretic size | M_/P_Scales, M_/P_Tighten10 | finite tables lifted to all arguments, modular arithmetic; list and arithmetic lemmas | C120_names, C120_sizes, C120_exceptions
C121 | get_beats returns an ordered list of beats from the start time to the end of the piece | M_/P_Beats | loop invariant and ranking function; induction over the run | C121_beats, C121_end, C121_loaded
C122 | Consecutive beats are exactly one beat of music apart | M_/P_Beats | loop invariant and ranking function; induction over the run | C122_one_beat
C123 | Beats follow the signature in force and meet every signature change | M_/P_Beats | loop invariant and ranking function; induction over the run | C123_period, C123_changes
C124 | Downbeats are the first beats of the bars | M_/P_Beats | loop invariant and ranking function; induction over the run | C124_subset, C124_bars
C125 | Note lengths in steps and steps in seconds | M_/P_NoteExtra | arithmetic of rationals and (frequencies) reals | C125_step_lengths, C125_steps_to_seconds, C125_round_trip
C126 | Beat arithmetic of a note | M_/P_NoteExtra | arithmetic of rationals and (frequencies) reals | C126_beat_lengths, C126_bpm, C126_four_quarter
C127 | Notes from JSON dictionaries | M_/P_NoteExtra | arithmetic of rationals and (frequencies) reals | C127_complete, C127_missing, C127_steps
C128 | Pitch frequencies | M_/P_NoteExtra | arithmetic of rationals and (frequencies) reals | C128_equal_temperament, C128_pitch, C128_four_eighth, C128_four_eighth_exact
C129 | Onsets and tempo estimates | M_/P_Tempi | invariant of the clustering loop (counts, mass, range); argmax | C129_onsets, C129_tempi, C129_mean, C129_steady
C130 | The global tempo estimate | M_/P_Tempi | invariant of the clustering loop (counts, mass, range); argmax | C130_tempo
C131 | The estimated first beat is the best candidate onset | M_/P_Tempi, M_/P_Tighten2 | invariant of the clustering loop (counts, mass, range); argmax; list and arithmetic lemmas | C131_no_notes, C131_beat_start, C131_wide
C132 | adjust_times rejects unusable times before touching the piece | M_/P_Adjust | induction over the breakpoints; monotonicity and uniqueness of interpolation; additivity of the tempo integral, zone by zone | C132_bad_times
C133 | adjust_times moves notes along one monotone piecewise linear map | M_/P_Adjust | induction over the breakpoints; monotonicity and uniqueness of interpolation; additivity of the tempo integral, zone by zone | C133_notes
C134 | adjust_times moves events and keeps one per list at the new start | M_/P_Adjust | induction over the breakpoints; monotonicity and uniqueness of interpolation; additivity of the tempo integral, zone by zone | C134_events
C135 | adjust_times anchors the time signatures at the first downbeat | M_/P_Adjust | induction over the breakpoints; monotonicity and uniqueness of interpolation; additivity of the tempo integral, zone by zone | C135_signatures
C136 | adjust_times conserves musical time | M_/P_Adjust | induction over the breakpoints; monotonicity and uniqueness of interpolation; additivity of the tempo integral, zone by zone | C136_musical_time
C137 | adjust_times fails half way when the times make no progress | M_/P_Adjust | induction over the breakpoints; monotonicity and uniqueness of interpolation; additivity of the tempo integral, zone by zone | C137_late_failure
C138 | Order of timed events | M_/P_EventOrder | order laws of near times; case analysis on fields; induction over lists | C138_order, C138_strict_order, C138_not_weak
C139 | Control changes: shifting and (in)equality | M_/P_EventOrder | order laws of near times; case analysis on fields; induction over lists | C139_shift, C139_shift_back, C139_base_eq_ne, C139_base, C139_cc_eq
C140 | Pitch bends: equality and sorting | M_/P_EventOrder | order laws of near times; case analysis on fields; induction over lists | C140_bend_eq, C140_bend_sort
C141 | Key signatures accept two modes | M_/P_EventOrder | order laws of near times; case analysis on fields; induction over lists | C141_key_signature
C142 | ppq_to_qpm ignores the tempo | M_/P_EventOrder | order laws of near times; case analysis on fields; induction over lists | C142_ppq_to_qpm
C143 | Piano roll of a piece | M_/P_Rolls | induction over the instruments, exchange of finite sums | C143_piano_roll, C143_order
C144 | Pitch class histogram sums and normalises | M_/P_Rolls | induction over the instruments, exchange of finite sums | C144_histogram
C145 | Pitch class transition matrix sums and normalises | M_/P_Rolls | induction over the instruments, exchange of finite sums | C145_transitions, C145_mean
C146 | Chroma folds the piano roll without loss | M_/P_Rolls | induction over the instruments, exchange of finite sums | C146_chroma
C147 | Loading signatures and lyrics | M_/P_Meta | induction over the events of the first track on top of the tick table invariant | C147_loaded
C148 | Which files are rejected | M_/P_Meta | induction over the events of the first track on top of the tick table invariant | C148_rejected
C149 | Name of a loaded instrument | M_/P_Load | induction over messages with a simulation of note pairing | C149_instrument_names
C150 | Signatures of a file that is read | M_/P_Reader | induction over notes | C150_signature_errors, C150_signatures
C151 | Score of an interval tree | M_/P_TreeMore | invariant over histories; induction on the node tree | C151_score, C151_score_insertions, C151_score_constructor, C151_score_removals_refuted
C152 | Accessors and named set methods of an interval tree | M_/P_TreeMore | invariant over histories; induction on the node tree | C152_accessors, C152_overlaps_refuted, C152_named_methods_refuted
C153 | Cached questions to a sequence | M_/P_SeqMore | induction over call histories; order and rounding arithmetic | C153_asking_changes_nothing, C153_last_event, C153_last_event_frozen, C153_no_offset, C153_initial_tempo, C153_initial_tempo_frozen
C154 | Sorting sequences and instruments | M_/P_SeqMore | induction over call histories; order and rounding arithmetic | C154_sorting_sequences, C154_sorting_instruments, C154_instrument_ne
C155 | Counts of a multi-track object | M_/P_SeqMore | induction over call histories; order and rounding arithmetic | C155_counts, C155_track_length, C155_counts_of_list
C156 | Changing the resolution moves no note | M_/P_SeqMore | induction over call histories; order and rounding arithmetic | C156_resolution
C157 | Relative velocity scaling | M_/P_SeqMore | induction over call histories; order and rounding arithmetic | C157_range, C157_monotone, C157_exact, C157_same_start_refuted
C158 | Tempo lost by saving, in double precision | M_/P_Float | rounding error analysis (relative error per rounding, monotone rounding), induction over the tempo map | C158_saved_tempo, C158_drift, C158_kept
C159 | Accuracy of tick_to_time in double precision | M_/P_Float, M_/P_Tighten9 | rounding error analysis (relative error per rounding, monotone rounding), induction over the tempo map; list and arithmetic lemmas | C159_tick_seconds, C159_too_long, C159_negative
C160 | Ticks survive the conversion to seconds, in double precision | M_/P_Float | rounding error analysis (relative error per rounding, monotone rounding), induction over the tempo map | C160_ticks_survive, C160_distinct
C161 | time_to_tick in double precision | M_/P_Float | rounding error analysis (relative error per rounding, monotone rounding), induction over the tempo map | C161_any_time
C162 | A whole piece survives saving and loading | M_/P_Song, M_/P_Tighten7 | composition of the round trips of tracks, tempo map and signatures (C82-C84, C147) through nearest ticks, permutations and stable sorting; list and arithmetic lemmas | C162_piece, C162_savable, C162_key_names, C162_refused
C163 | A piece made from scratch comes back early by at most a microsecond per beat | M_/P_Song | composition of the round trips of tracks, tempo map and signatures (C82-C84, C147) through nearest ticks, permutations and stable sorting | C163_scratch, C163_early
C164 | Load, save, load is stable | M_/P_Song | composition of the round trips of tracks, tempo map and signatures (C82-C84, C147) through nearest ticks, permutations and stable sorting | C164_reload
C165 | Loading changes the MidiFile object | M_/P_Song | composition of the round trips of tracks, tempo map and signatures (C82-C84, C147) through nearest ticks, permutations and stable sorting | C165_object
C166 | Saving into an existing MidiFile object | M_/P_Song | composition of the round trips of tracks, tempo map and signatures (C82-C84, C147) through nearest ticks, permutations and stable sorting | C166_into, C166_loaded
C167 | Reading a MIDI file yields exactly the notes it denotes | M_/P_Pipe | composition of loading (C40, C162), the tempo map (C37, C80), reading (C42) and graph building (C45, C46, C90), transported along Forall2 between ticks and seconds | C167_read
C168 | Which notes of a file are lost in reading | M_/P_Pipe | composition of loading (C40, C162), the tempo map (C37, C80), reading (C42) and graph building (C45, C46, C90), transported along Forall2 between ticks and seconds | C168_kept
C169 | Every file that can be read can be turned into graphs of its pitches | M_/P_Pipe | composition of loading (C40, C162), the tempo map (C37, C80), reading (C42) and graph building (C45, C46, C90), transported along Forall2 between ticks and seconds | C169_graph, C169_all
C170 | Tempo changes are misplaced when an object is converted back | M_/P_Convert | induction over the tempo list with the table of tick times reset to [0]; the two-point time map of adjust_times (C132-C137) evaluated to a line; consecutive sorted onsets characterised | C170_tempo_ticks, C170_drift
C171 | Only pieces with a rhythm can be converted back | M_/P_Convert | induction over the tempo list with the table of tick times reset to [0]; the two-point time map of adjust_times (C132-C137) evaluated to a line; consecutive sorted onsets characterised | C171_rhythm
C172 | from_start and to_end stretch a piece instead of cutting it | M_/P_Convert | induction over the tempo list with the table of tick times reset to [0]; the two-point time map of adjust_times (C132-C137) evaluated to a line; consecutive sorted onsets characterised | C172_linear, C172_file
C173 | Converting an object at one tempo changes the tempo unless it ends on a tick | M_/P_Convert2 | induction over the tempo list with the table of tick times reset to [0]; the two-point time map of adjust_times (C132-C137) evaluated to a line; consecutive sorted onsets characterised | C173_tempo
C174 | Reading, writing and reading a file with one tempo keeps the notes | M_/P_Convert2 | induction over the tempo list with the table of tick times reset to [0]; the two-point time map of adjust_times (C132-C137) evaluated to a line; consecutive sorted onsets characterised | C174_save_read
C175 | The graph traversal visits exactly the reachable nodes | M_/P_Tighten4, M_/P_Traverse | list and arithmetic lemmas; loop invariant: heap entries are walks, visited distances are least; potential of unvisited edges for termination | C175_errors, C175_short, C175_reachable
C176 | With weights not negative the traversal goes by distance | M_/P_Traverse | loop invariant: heap entries are walks, visited distances are least; potential of unvisited edges for termination | C176_order, C176_ties
C177 | Five of the six trainers cannot be constructed as documented | M_/P_Tighten2, M_/P_Train | list and arithmetic lemmas; case analysis of arguments; counting by classes (finite sums); induction over epochs | C177_errors, C177_shifted, C177_constructors
C178 | The four scores of a test batch are one number | M_/P_Train | case analysis of arguments; counting by classes (finite sums); induction over epochs | C178_test
C179 | What training reports | M_/P_Train | case analysis of arguments; counting by classes (finite sums); induction over epochs | C179_trainer, C179_raises
C180 | Relative velocity scaling in double precision | M_/P_Velocity | relative error bound of three roundings | C180_near, C180_identity, C180_loss
C181 | Link prediction is symmetric and a probability | M_/P_Link | real analysis of the sigmoid | C181_link
C182 | Nodes that look alike get the same scores | M_/P_Network | one simulation lemma along paired predecessors, by induction over the convolutions; entrywise unfolding of the list operations | C182_alike
C183 | Edge order, node numbering and batching do not change the scores | M_/P_Network | one simulation lemma along paired predecessors, by induction over the convolutions; entrywise unfolding of the list operations | C183_order, C183_renumber, C183_batch
C184 | How far a node sees | M_/P_Network | one simulation lemma along paired predecessors, by induction over the convolutions; entrywise unfolding of the list operations | C184_field
C185 | Convolution and network compute their formula | M_/P_Network | one simulation lemma along paired predecessors, by induction over the convolutions; entrywise unfolding of the list operations | C185_formula, C185_network
C186 | Listed MIDI files are copied by name | M_/P_Download | induction on the list of files with the file system as state; last writer of a name wins | C186_copied, C186_distinct, C186_same_name, C186_stale, C186_directories
C187 | A missing listed file cannot be retried with the same list | M_/P_Download | induction on the list of files with the file system as state; last writer of a name wins | C187_missing, C187_retry
C188 | Graph builder constructors | M_/P_Builder | invariants of the registration map along the live iteration; measure of unregistered numbers for termination; pathlib suffix by induction on names | C188_accepts, C188_options_ignored, C188_no_data, C188_from_sequence, C188_from_file, C188_from_file_refuses, C188_from_file_builds, C188_given, C188_from_sequences
C189 | Which tracks of an object are built | M_/P_Builder | invariants of the registration map along the live iteration; measure of unregistered numbers for termination; pathlib suffix by induction on names | C189_numbered, C189_list, C189_outside, C189_ends, C189_assigned, C189_assigned_consecutive, C189_assigned_lost
C190 | A class number leads back to the notes its node shows | M_/P_Decode | invariant over histories that every registered chord and every node shows the pitches behind its hash; a log of registrations independent of the builder | C190_decode, C190_reverse
C191 | Building the same again changes nothing but repeats the graphs | M_/P_Decode | invariant over histories that every registered chord and every node shows the pitches behind its hash; a log of registrations independent of the builder | C191_again, C191_independent
C192 | What the dataset check accepts | M_/P_Checker | induction over masks; every element of a walk is first reached by a step | C192_check, C192_edges, C192_built
C193 | Dataset statistics count labels per graph | M_/P_Stats | from the contents theorem of C111: labels are injective images of distinct nodes; every node is entered by an edge | C193_statistics, C193_no_labels
C194 | Only the controllers after the music survive reading a file | M_/P_Pipe2 | composition of loading (C40, C162), the tempo map (C37, C80), reading (C42) and graph building (C45, C46, C90), transported along Forall2 between ticks and seconds | C194_controllers
C195 | Signatures of a piece converted back to MIDI | M_/P_Convert3, M_/P_Tighten | induction over the tempo list with the table of tick times reset to [0]; the two-point time map of adjust_times (C132-C137) evaluated to a line; consecutive sorted onsets characterised; list and arithmetic lemmas | C195_signatures, C195_order, C195_refused, C195_resolution, C195_error
C196 | Notes that sound together are cut when written and loaded | M_/P_Cut | the written track as a sorted list of events; the first event that closes a note is the least of the ticks that stop it; lifting to seconds by choosing the time of that tick | C196_track, C196_unique, C196_kept
C197 | What saving and loading does to a piece with overlapping notes | M_/P_Cut | the written track as a sorted list of events; the first event that closes a note is the least of the ticks that stop it; lifting to seconds by choosing the time of that tick | C197_piece, C197_scratch
C198 | A track saved with to_midi_file is read back note for note | M_/P_SaveSeq, M_/P_Tighten5 | C196 and C167 composed: the file written is computed symbolically, its ticks bounded by the distance to the nearest tick, its one part found by the specification of reading; list and arithmetic lemmas | C198_read, C198_near, C198_ends, C198_refused, C198_callback, C198_callback
C199 | Rescaling velocities is linear and keeps the order of loudness | M_/P_Rescale, M_/P_Tighten3 | relative error of rounding against the distance 1/d of a quotient to the next whole number; monotony of rounding; list and arithmetic lemmas | C199_rescale, C199_bounds, C199_again, C199_edges, C199_scale, C199_one, C199_negative
C200 | Grouping notes into chords in double precision | M_/P_Rounding, M_/P_Snap | nearest integer of the scaled value; monotonicity and relative error of each rounding composed; stability of rounding off half-integers; the grouping invariant of C44 | C200_rounding, C200_groups, C200_negative, C200_close, C200_interval, C200_agrees
C201 | Node.verify accepts no node | M_/P_NodeVerify | balance invariant of insertions, case analysis | C201_verify, C201_kept, C201_balanced_refused
C202 | A track becomes the same kind of graph in double precision | M_/P_GraphF | rounded quotients keep their floor; lemmas of the exact model transferred to any grouping | C202_fresh, C202_onto, C202_attributes, C202_velocities, C202_single_velocity, C202_succeeds, C202_agrees
C203 | A multi-track object becomes graphs in double precision | M_/P_GraphF | rounded quotients keep their floor; lemmas of the exact model transferred to any grouping | C203_per_instrument, C203_whole, C203_succeeds
C204 | Split sizes in double precision | M_/P_SplitF | relative error bounds; distance of a fraction from a whole number | C204_share, C204_exact, C204_product, C204_masks, C204_written, C204_split
C205 | Notes are quantised in double precision | M_/P_NoteF, M_/P_NoteF2 | error bounds of the rounded operations, case analysis over the setters; error bounds of the rounded operations, case analysis over the setters | C205_step_errors, C205_step_monotone, C205_step_near, C205_step_agrees, C205_step_exact, C205_valid, C205_keeps, C205_succeeds, C205_practical, C205_copy, C205_min_step
C206 | Time and key signatures survive the conversion to a MIDI piece, moved with the notes | M_/P_Convert4 | induction over the tempo list with the table of tick times reset to [0]; the two-point time map of adjust_times (C132-C137) evaluated to a line; consecutive sorted onsets characterised | C206_times, C206_keys
C207 | Notes in JSON | M_/P_NoteJson | induction over the nested values, case analysis over the arguments | C207_unchanged, C207_no_marker, C207_inside, C207_note, C207_round_trip, C207_errors
C208 | Synthesized sound is the normalized mix of the instruments | M_/P_Synth | the mix at each sample, monotony of rounding | C208_samples, C208_sum, C208_range, C208_order, C208_louder, C208_silence, C208_none
C209 | What the example scripts report as accuracy | M_/P_Evaluate | counting by induction over batches and nodes | C209_gin, C209_example02, C209_no_batch, C209_gae, C209_never_evaluated, C209_evaluate_fails
C210 | Loading with from_file | M_/P_FromFile | case analysis over what is read, on top of C35 | C210_reader, C210_own_reader, C210_other_readers
C211 | Names of notes | M_/P_NoteName | the regular expression as a parser, proved equal to a grammar of names in both directions; induction over numerals and over call sequences | C211_spelled, C211_roundtrip, C211_injective, C211_labels, C211_from_name, C211_same_note, C211_stale
C212 | Shifting and stretching in double precision | M_/P_ShiftF | monotonicity and error bound of rounding, lifted to notes and lists | C212_shift, C212_shift_order, C212_shift_total, C212_shift_valid, C212_shift_practical, C212_shift_exact, C212_stretch, C212_stretch_order, C212_stretch_exact
C213 | Stand-alone quantisers in double precision | M_/P_Tighten6, M_/P_UtilsF | list and arithmetic lemmas; chains of relative error bounds; floors and nearest integers pinned by the bounds | C213_step_errors, C213_self_check, C213_frames, C213_frames_agree, C213_frames_errors, C213_frame_bounds, C213_frame_bounds_pow2, C213_occupied, C213_threshold, C213_threshold_order, C213_threshold_near, C213_threshold_errors, C213_step, C213_step_order, C213_step_idempotent, C213_grid_order, C213_grid_errors, C213_grid_steps, C213_check
C214 | Connecting the graphs of different instruments | M_/P_Connect | the set of edges a pass adds, composed over notes, edges and nodes; induction over the iteration with its snapshot of neighbours | C214_missing, C214_connect, C214_directed, C214_stable, C214_range
C215 | Beats in double precision | M_/P_BeatsF, M_/P_Tighten8 | invariant of the beat loop relating the pending signatures to the rounded next beat; across tempo changes, an invariant on musical position plus remainder whose error grows by a constant per change; induction on the beats; termination by a measure; list and arithmetic lemmas | C215_start, C215_changes, C215_order, C215_period, C215_plain, C215_drift, C215_count, C215_exact, C215_returns, C215_absorbed, C215_downbeats, C215_bars, C215_rebarred
C216 | Beats across tempo changes, in double precision | M_/P_BeatsF2 | invariant of the beat loop relating the pending signatures to the rounded next beat; across tempo changes, an invariant on musical position plus remainder whose error grows by a constant per change; induction on the beats; termination by a measure | C216_returns, C216_one_beat, C216_drift, C216_count, C216_downbeats
C217 | Adjusting the times of a piece, in double precision | M_/P_AdjustF, M_/P_AdjustF2 | interpolation within six roundings of the exact one by composing relative errors; monotone inside a zone because rounding is; lists by induction as for C133-C136; tempo lists entrywise against the exact ones; tick positions by an invariant on the distance from the exact position; interpolation within six roundings of the exact one by composing relative errors; monotone inside a zone because rounding is; lists by induction as for C133-C136; tempo lists entrywise against the exact ones; tick positions by an invariant on the distance from the exact position | C217_notes, C217_events, C217_signatures, C217_tempi, C217_failures, C217_ticks
C218 | Tempo conversions in double precision | M_/P_TempoF | relative-error composition (each rounding one factor 1 +- 2^-53); round trips by showing the error below one half; the whole-part claim by the error bound when the quotient is not whole and by kernel computation over all whole quotients otherwise; exactness from scaling by powers of two | C218_tempo_to_qpm, C218_signature, C218_ppq, C218_steps, C218_measure, C218_no_tempo, C218_setter
C219 | Reported tempi in double precision | M_/P_ReportF | invariant of the grown tick table (scales unchanged, times those of the exact segment formula rounded), strict increase of the times, relative-error composition for each tempo, and the error bound 60000000*5/2^51 < 1/2 for the whole part | C219_report
C220 | Ticks and seconds after repeated saving, in double precision | M_/P_Resave | C158, C159 and C160 composed: the tempo of every tick falls by at most one per round (induction on rounds), so by summation over ticks the exact time falls by at most n*k/(10^6*resolution); the double time is within the rounding bound of the exact one of the resaved map | C220_resaved
C221 | A whole piece saved in double precision | M_/P_SongF | simulation between the exact and the rounded piece: every table entry has a rounded counterpart that converts to the same tick (C159), so signatures, notes and controllers agree; merged scales have equal ties because rounding is injective on MIDI tempi; stable sorting respects the relation | C221_saved, C221_outcome
C222 | Tempi do not move notes or signatures | M_/P_SongTempo | the simulation of C221 across two tempo maps: tables of equal length whose entries convert to the same ticks; stable sorting by rank commutes with leaving out the tempi | C222_double, C222_exact, C222_any_double, C222_any_exact, C222_appended_double, C222_appended_exact
<!-- /table -->
