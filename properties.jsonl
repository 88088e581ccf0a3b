{"id": "C01", "title": "Closed interval overlap and intersection agree with point sets", "statement": "For midi Interval objects a and b, a.overlaps(b) is true exactly when some time lies in both; overlaps is symmetric; a.intersection(b) is None exactly when they do not overlap and otherwise contains exactly the times contained in both.", "quantifier": "all pairs of intervals (any start/end, including start > end) and all times", "why_tests_cant": "the claim ranges over every pair of intervals and every time point", "anchors": ["neural_graph_composer/midi/Interval.py: Interval.overlaps, Interval.intersection, Interval.__contains__"]}
{"id": "C02", "title": "Interval union is the hull, and the point-set union when intervals overlap", "statement": "a.union(b) is always the smallest interval containing both; when they overlap it contains exactly the times contained in a or in b; when they do not, it also contains the times in the gap (it never returns None).", "quantifier": "all pairs of intervals and all times", "why_tests_cant": "every pair of intervals", "anchors": ["neural_graph_composer/midi/Interval.py: Interval.union"]}
{"id": "C03", "title": "Interval ordering is a strict total order compatible with equality and hash", "statement": "Interval < is irreflexive, transitive and total up to ==; <= is < or ==; == intervals have equal hashes. Hence sorted containers keyed by intervals are well defined.", "quantifier": "all triples of intervals", "why_tests_cant": "order laws quantify over all triples", "anchors": ["neural_graph_composer/midi/Interval.py: Interval.__lt__, __le__, __eq__, __hash__"]}
{"id": "C04", "title": "SortedDict behaves as a finite map iterated in ascending key order", "statement": "After any sequence of assignments and deletions on an empty SortedDict, lookup returns the last value assigned and not deleted since, len is the number of such keys, keys/values/items/iteration list exactly these entries in strictly ascending key order, and deleting an absent key raises KeyError and changes nothing. Constructing from a non-empty mapping raises AttributeError.", "quantifier": "all operation histories over all keys and values", "why_tests_cant": "the history length is unbounded", "anchors": ["neural_graph_composer/midi/sorted_dict.py: SortedDict.__setitem__, __delitem__, __iter__, keys, values, items"]}
{"id": "C05", "title": "SortedIntervalDict slicing selects exactly the overlapping entries; deletion never succeeds", "statement": "For a SortedIntervalDict built by any sequence of assignments, d[a:b] has exactly the entries whose key interval overlaps [a,b] (a missing bound is unbounded) with their values, in key order, and leaves d unchanged; d[interval] returns the last assigned value or KeyError. `del d[interval]` raises and removes nothing, for every key present or absent.", "quantifier": "all assignment histories, all slices", "why_tests_cant": "unbounded histories and slices", "anchors": ["neural_graph_composer/midi/sorted_interval_dict.py: SortedIntervalDict.__getitem__, __setitem__, __delitem__"]}
{"id": "C06", "title": "FloatInterval ordering and equality form a strict total order", "statement": "FloatInterval comparison (<, >, ==) orders by begin, then end, then data; it is irreflexive, transitive and total, equal intervals hash equally, and exactly one of <, ==, > holds.", "quantifier": "all triples of intervals with comparable data", "why_tests_cant": "order laws quantify over all triples", "anchors": ["neural_graph_composer/interval/interval.py: FloatInterval.__cmp__, __lt__, __gt__, __eq__, __hash__"]}
{"id": "C07", "title": "FloatInterval point and range queries: what they decide", "statement": "contains_point(p) is true exactly when p is close (relative 1e-9) to BOTH begin and end, and overlaps(b, e) exactly when b is close to the end and e > begin. Consequently an interval whose endpoints are not close contains no point at all and does not overlap itself, so the documented half-open contract (begin <= p < end; ranges share a point) fails for every ordinary interval.", "quantifier": "all intervals, points and ranges", "why_tests_cant": "all intervals and points", "anchors": ["neural_graph_composer/interval/interval.py: FloatInterval.contains_point, overlaps"]}
{"id": "C08", "title": "FloatInterval containment, distance and length algebra", "statement": "contains_interval is reflexive, transitive and antisymmetric on ranges and means inclusion of the half-open point sets for non-null intervals; length is end - begin or 0 for null intervals and never negative; lt and gt say that all points of one interval precede or follow all points of the other, le compares only the ends (to 1e-9), ge only the begins, and all four raise ValueError if either interval is null; distance_to a disjoint interval is the gap (0 if the other begins within 1e-9 of this end), and for intervals that share a point it is negative instead of the documented 0, unless the other begins within 1e-9 of this end.", "quantifier": "all pairs of intervals", "why_tests_cant": "all pairs", "anchors": ["neural_graph_composer/interval/interval.py: contains_interval, length, distance_to, is_null, range_matches"]}
{"id": "C09", "title": "FloatInterval copy and pickle round-trip", "statement": "Pickling and unpickling, or copying, any FloatInterval yields an equal interval with the same begin, end and data, whether or not data is None.", "quantifier": "all begin, end, data", "why_tests_cant": "all field values", "anchors": ["neural_graph_composer/interval/interval.py: _get_fields, copy, __reduce__"]}
{"id": "C10", "title": "FloatIntervalTree has set semantics for membership and length", "statement": "Starting from an empty tree and applying any sequence of add / addi / update / discard / difference_update / remove / clear / merge_* calls with null or ordinary intervals (no time within 1e-9 of both ends), membership and len equal those of a mathematical set of intervals subjected to the same operations; adding a null interval (begin >= end) raises ValueError and changes nothing; update stops at the first null interval; adding a present interval and discarding an absent one change nothing.", "quantifier": "all operation histories on non-near-null intervals", "why_tests_cant": "unbounded histories", "anchors": ["neural_graph_composer/interval/intervaltree.py: FloatIntervalTree.add, addi, update, discard, clear, __contains__, __len__"]}
{"id": "C11", "title": "Tree boundaries, begin, end and span track the members", "statement": "After any such history, the boundary table maps each time to the number of current members' endpoints equal to it (and has no zero entries), begin() is the least begin, end() the greatest end of the members (0 if empty) and span() their difference.", "quantifier": "all operation histories", "why_tests_cant": "unbounded histories", "anchors": ["neural_graph_composer/interval/intervaltree.py: _add_boundaries, _remove_boundaries, begin, end, span"]}
{"id": "C12", "title": "Interval tree stays a balanced search tree holding exactly its members under insertion", "statement": "After any sequence of adds and updates with null or ordinary intervals on an empty tree, the node structure holds exactly the members, once each, one per node; keys in left subtrees are <= and in right subtrees >= the node key; every node's recorded depth and balance are the true ones; sibling heights differ by at most one, so 2^height <= (n+1)^2 for n members.", "quantifier": "all insertion histories", "why_tests_cant": "unbounded trees and all rotation patterns", "anchors": ["neural_graph_composer/interval/node.py: Node.add, rotate, srotate, drotate, refresh_balance; interval/intervaltree.py: add"]}
{"id": "C13", "title": "Removing members from the tree", "statement": "In a tree with any history, remove(iv) raises ValueError and leaves the tree unchanged for every interval that is absent, and also for every present interval (ordinary: no time near both ends); discard(iv) of a present interval makes it a non-member but leaves it inside the node structure, so members and nodes disagree afterwards.", "quantifier": "all trees built by insertions, all intervals", "why_tests_cant": "unbounded trees", "anchors": ["neural_graph_composer/interval/intervaltree.py: remove, discard; interval/node.py: remove_interval_helper, center_hit"]}
{"id": "C14", "title": "MidiNote construction clamps or rejects every field", "statement": "Construction succeeds exactly when end > start, numerator is positive and denominator a power of two (positive), and then pitch, velocity, instrument lie in 0..127, program in 0..255, numerator and denominator in 1..255, in-range arguments are kept unchanged and out-of-range ones are moved to the nearest bound.", "quantifier": "all argument tuples", "why_tests_cant": "all integers and times", "anchors": ["neural_graph_composer/midi/midi_note.py: MidiNote.__init__"]}
{"id": "C15", "title": "MidiNote time setters preserve start < end", "statement": "A start_time / end_time assignment is accepted exactly when the value is non-negative and keeps start < end, then only that time changes; a rejected one raises ValueError and changes nothing. Hence any history of setters and quantisations, accepted or rejected, on a constructed note keeps start < end.", "quantifier": "all assignment histories", "why_tests_cant": "unbounded histories", "anchors": ["neural_graph_composer/midi/midi_note.py: start_time.setter, end_time.setter"]}
{"id": "C16", "title": "MidiNote equality and order laws", "statement": "Note equality is reflexive and symmetric but not transitive; < is irreflexive and asymmetric, orders by start, then end, then pitch up to 1e-6; it is transitive whenever time differences are either zero or more than the tolerance, and not transitive in general.", "quantifier": "all pairs/triples of notes", "why_tests_cant": "laws over all triples", "anchors": ["neural_graph_composer/midi/midi_note.py: MidiNote.__eq__, __lt__, __le__"]}
{"id": "C17", "title": "MidiNote overlap means sharing an instant", "statement": "a.overlaps(b) is symmetric and true exactly when the open time spans of two valid notes share an instant.", "quantifier": "all pairs of valid notes", "why_tests_cant": "all pairs", "anchors": ["neural_graph_composer/midi/midi_note.py: MidiNote.overlaps"]}
{"id": "C18", "title": "Quantising a time to the nearest step is bounded and monotone", "statement": "For positive steps-per-second and amount, the step chosen for time t is a non-negative integer, never decreases when t increases, and differs from t*sps + (1-amount) by less than one step (when that is non-negative); non-positive parameters raise ValueError.", "quantifier": "all times, rates and amounts", "why_tests_cant": "all rationals", "anchors": ["neural_graph_composer/midi/midi_note.py: quantize_to_nearest_step"]}
{"id": "C19", "title": "Quantising a note succeeds, keeps it valid and moves it by a bounded amount", "statement": "Whenever quantize_in_place succeeds, 0 <= start step < end step and 0 <= start < end. For every valid note with start >= 0, every rate >= 1 and amount in (0,1] (no min_step) it does succeed: the steps are floor and ceiling of t*sps + (1-amount) (for an already quantised note the step length is divided by sps again, so quantising is not idempotent), start moves by at most one step plus 5 ms, end by at most two steps plus 5 ms, and nothing else changes.", "quantifier": "all valid notes and all quantisation parameters", "why_tests_cant": "all rationals", "anchors": ["neural_graph_composer/midi/midi_note.py: quantize_in_place, quantize"]}
{"id": "C20", "title": "Copying a note yields an equal note", "statement": "After any history of calls on a constructed note, make_copy returns a note equal in every field when start < end and the denominator given at construction was at most 128; a note constructed with a larger power-of-two denominator (stored clamped to 255), or whose end is not after its start, cannot be copied (AssertionError).", "quantifier": "all notes", "why_tests_cant": "all field values", "anchors": ["neural_graph_composer/midi/midi_note.py: make_copy, __eq__"]}
{"id": "C21", "title": "Shifting and stretching notes", "statement": "shift_time by d and back by -d restores the note and preserves duration; stretch by a positive factor multiplies the duration and keeps start < end; stretching by zero or a negative factor always yields an invalid note (end <= start) without an error.", "quantifier": "all notes, offsets and factors", "why_tests_cant": "all rationals", "anchors": ["neural_graph_composer/midi/midi_note.py: shift_time, stretch"]}
{"id": "C22", "title": "Control changes: construction clamps, quantisation never succeeds", "statement": "Control-change number, value, program and instrument are stored as the nearest value in 0..255, the step as the nearest in 1..32 and time as at least 0, and later calls keep them there. quantize_in_place and quantize raise ValueError for every control change, rate and amount, changing at most the start step.", "quantifier": "all control changes and rates", "why_tests_cant": "all values", "anchors": ["neural_graph_composer/midi/midi_control_change.py: __init__, quantize_in_place, quantized_start.setter"]}
{"id": "C23", "title": "Pitch bends are accepted exactly in range", "statement": "A pitch bend is constructed exactly when its amount is within -8191..8191, program and instrument within 0..127 and time non-negative, and then stores the arguments unchanged; setters preserve this.", "quantifier": "all argument tuples", "why_tests_cant": "all values", "anchors": ["neural_graph_composer/midi/midi_pitch_bend.py: MidiPitchBend.__init__ and setters"]}
{"id": "C24", "title": "Instrument descriptors round-trip and naming is total", "statement": "from_dict(to_dict(i)) equals i for every instrument; instruments with equal number, name and drum flag are equal and hash equally; a default name is chosen for every number, and is the General-MIDI family of (n-1)/8 for 1..128 and Unknown otherwise.", "quantifier": "all instruments", "why_tests_cant": "all values", "anchors": ["neural_graph_composer/midi/midi_instruments.py: MidiInstrumentInfo"]}
{"id": "C25", "title": "Tempo conversions", "statement": "For every tempo signature: seconds per quarter times qpm is 60, seconds per tick times resolution is 60/qpm, bpm is qpm/4 and setting bpm then reading it returns the same value; tempo_to_qpm(t)*t = 60e6 (ZeroDivisionError at 0); converting bpm to qpm and back multiplies by beats*quarter/60, so with default arguments it never returns a non-zero tempo; steps per second from resolution and qpm is the inverse of seconds per tick.", "quantifier": "all positive tempi", "why_tests_cant": "all rationals", "anchors": ["neural_graph_composer/midi/midi_time_signature.py: MidiTempoSignature; midi/midi_utils.py: bpm_to_qpm, qpm_to_bpm"]}
{"id": "C26", "title": "A sequence's total time bounds all its notes", "statement": "After any history of add_note, append, extend, insert, notes assignment, cut_in_place, stretch, shift_times, merge, quantize, as_note_seq, add_control_change and add_pitch_bend (raising calls included) on a sequence, total_time is at least the end time of every note it shows. add_note accepts exactly the notes carrying the sequence's instrument number, appends them to the list chosen by the note's drum flag, and a rejected add_note changes nothing; a sequence filled by add_note only holds exactly the accepted notes in order and its total_time is the latest end. append and extend add the given notes at the end and raise total_time to the latest of their ends and no further; extending by an empty list raises ValueError and changes nothing.", "quantifier": "all histories of note additions", "why_tests_cant": "unbounded histories", "anchors": ["neural_graph_composer/midi/midi_sequence.py: add_note, append, extend, total_time"]}
{"id": "C27", "title": "Truncating a sequence keeps exactly the notes ending in time", "statement": "truncate(t) returns a new sequence whose notes are exactly, in order, those of the original with end <= t, with total_time = min(total, t), and leaves the original unchanged.", "quantifier": "all sequences and times", "why_tests_cant": "unbounded sequences", "anchors": ["neural_graph_composer/midi/midi_sequence.py: truncate"]}
{"id": "C28", "title": "Slicing a sequence keeps exactly the notes that start in the window", "statement": "slice(a,b) with a >= 0 on a sequence whose notes are valid and belong to it keeps exactly the notes with a <= start < b, in order and with unchanged (not clipped) times; the result's total_time is min(total_time, b), hence smaller than the end of every kept note reaching past b. Strict slicing of an unquantised sequence, and slicing over a note of another instrument, raise ValueError.", "quantifier": "all sequences and windows", "why_tests_cant": "unbounded sequences", "anchors": ["neural_graph_composer/midi/midi_sequence.py: slice"]}
{"id": "C29", "title": "Merging sequences loses and invents no notes", "statement": "merge succeeds exactly when instruments and resolutions are equal and all notes carry that instrument number; then the notes are a permutation of both inputs' notes, total_time is the latest end, and if no two times differ by less than the tolerance the notes are in (start, end, pitch) order; otherwise it raises ValueError and changes nothing.", "quantifier": "all pairs of sequences", "why_tests_cant": "unbounded sequences", "anchors": ["neural_graph_composer/midi/midi_sequence.py: merge"]}
{"id": "C30", "title": "Concatenation, extraction and splitting of sequences never succeed on real content", "statement": "seq + other raises ValueError whenever either has a note or the instruments differ; extract raises ValueError whenever some note starts inside the requested windows and otherwise returns only empty sequences; extract and shift_times raise on an empty or fully quantised sequence; split raises AttributeError for every sequence with positive total_time.", "quantifier": "all sequences", "why_tests_cant": "unbounded sequences", "anchors": ["neural_graph_composer/midi/midi_sequence.py: __add__, extract, shift_times"]}
{"id": "C31", "title": "Shifting and stretching a whole sequence act uniformly", "statement": "shift_times(d) raises on a fully quantised sequence; otherwise shift_times and stretch(k) change the times of every shown note by the same affine map and nothing else about the note, keep the number and the order of the notes; total_time becomes max(0,total+d) after a shift and the latest end (k times the old total for k >= 0) after a stretch.", "quantifier": "all sequences, offsets and factors", "why_tests_cant": "unbounded sequences", "anchors": ["neural_graph_composer/midi/midi_sequence.py: shift_times, stretch"]}
{"id": "C32", "title": "Track creation and lookup", "statement": "After any history of calls on a MidiNoteSequences: create_track raises ValueError and changes nothing for a program outside 0..127; for an id not registered before it stores a new empty track under exactly that id, touches no other track, and repeating it changes nothing, so get_track(id) returns that track. Without subscript reads in the history get_track(i) succeeds for every i in 0..127, returning the stored track or a new one. Reading seqs[i] for an unregistered id instead stores a new empty track under the number of tracks present (overwriting the track kept there) and get_track(i) then raises KeyError.", "quantifier": "all histories of track operations", "why_tests_cant": "unbounded histories", "anchors": ["neural_graph_composer/midi/midi_sequences.py: __getitem__, create_track, get_track"]}
{"id": "C33", "title": "Signature lists stay sorted and have one signature at time zero", "statement": "After any sequence of add_time_signatures / add_key_signatures / add_tempo_signature with non-negative times (equal or more than the closeness tolerance apart), the list is sorted by time, starts with exactly one entry at time zero holding the last value given there (the default if none), and holds every other added entry exactly once. Entries of equal time need not be in the order given.", "quantifier": "all insertion histories", "why_tests_cant": "unbounded histories", "anchors": ["neural_graph_composer/midi/midi_sequences.py: add_time_signatures, add_key_signatures, add_tempo_signature"]}
{"id": "C34", "title": "Looking up the signature in force at a time", "statement": "time_signature(t) and tempo_signature(t) return, for t > 0, the last entry strictly before t (so at a change time the previous value); at t = 0 the default, but the LAST entry of the whole list once any signature was added at time 0; for t < 0 a fixed value. key_signature(t) agrees for t >= 0 and returns the last entry for t < 0.", "quantifier": "all signature histories and times", "why_tests_cant": "unbounded histories", "anchors": ["neural_graph_composer/midi/midi_sequences.py: time_signature"]}
{"id": "C35", "title": "Building a multi-track object from a list of sequences preserves notes", "statement": "MidiNoteSequences(midi_seq=l) succeeds exactly when any two sequences of l with the same instrument number have equal instruments, equal resolution and only notes of that instrument (ValueError otherwise); the result has exactly one track per instrument number, holding exactly the notes of the sequences with that number.", "quantifier": "all lists of sequences", "why_tests_cant": "unbounded lists", "anchors": ["neural_graph_composer/midi/midi_sequences.py: __init__, _add_midi_note_sequence"]}
{"id": "C36", "title": "Tick times sum the tick durations of the tempo map", "statement": "A file with ascending tempo events and positive microseconds-per-quarter loads iff its largest tick is below 10^9 (ValueError otherwise); afterwards, whatever tick/time queries are made in between, tick_to_time(k) is the summed duration of the first k ticks under the tempo in force at each tick (IndexError for k >= 10^9), the same holds for an object made from scratch with a constant tempo, and these times strictly increase with the tick.", "quantifier": "all resolutions, tempo event lists, largest ticks, call histories and ticks", "why_tests_cant": "The tick table is extended lazily by unbounded histories of calls over unbounded tempo maps.", "anchors": ["neural_graph_composer/custom_pretty_midi.py: _update_tick_to_time, tick_to_time"]}
{"id": "C37", "title": "Time-to-tick is a nearest-tick inverse", "statement": "After any calls, time_to_tick(t) returns a tick whose time is nearest to t among all ticks (also for negative times and times past the table), returns k exactly on the time of tick k, and is monotone.", "quantifier": "all resolutions, tempo maps, histories, ticks and times", "why_tests_cant": "Ranges over all rational times and histories.", "anchors": ["neural_graph_composer/custom_pretty_midi.py: time_to_tick"]}
{"id": "C38", "title": "Delta and absolute ticks round-trip", "statement": "Converting a track's absolute ticks to relative ones on serialisation and back on loading restores the ticks exactly, and conversely; ascending non-negative ticks give non-negative relative ticks, and non-negative relative ticks give ascending ones.", "quantifier": "all tracks", "why_tests_cant": "unbounded tracks", "anchors": ["neural_graph_composer/custom_pretty_midi.py: from_file, serialize"]}
{"id": "C39", "title": "Tempo events of the first track become a clean tempo map", "statement": "Loading ascending tempo events yields a map that starts at tick 0, is ascending, has no equal adjacent scales, and whose scale in force at each tick is that of the last tempo event at or before it (120 bpm before any).", "quantifier": "all ascending tempo event lists with positive tempos", "why_tests_cant": "unbounded lists", "anchors": ["neural_graph_composer/custom_pretty_midi.py: _load_tempo_changes"]}
{"id": "C40", "title": "Which notes a loaded track has", "statement": "Whatever the other tracks hold, the notes of the instrument of a (program, channel, track) are, once each and in ascending order of their ends, the notes the track denotes: every note-on gives one note lasting until the first release of its pitch at another tick, the first note-on of ANY channel or pitch at a later tick, or the end of the track, and belongs to the program its channel has at that moment. Instruments exist exactly for the keys with at least one note; they are drums iff on the drum channel.", "quantifier": "all files, tracks without two strikes of one pitch at one tick, programs and channels", "why_tests_cant": "unbounded event lists and interleavings of channels", "anchors": ["neural_graph_composer/custom_pretty_midi.py: _finish_notes, _note_off_event, _load_instruments"]}
{"id": "C41", "title": "Event order on serialisation", "statement": "For an instrument with MIDI-range values the written track is its name (if any), then exactly its events ordered by tick and, at one tick, program change, pitch bends by value, control changes by number and value, note-ons by pitch and velocity (velocity 0 being a release), then the end of the track one tick after the last event; so a release never follows a strike of the same pitch at the same tick.", "quantifier": "all instruments with MIDI-range fields and channels", "why_tests_cant": "unbounded event lists; the comparator must be consistent on all triples", "anchors": ["neural_graph_composer/custom_pretty_midi.py: serialize.event_compare"]}
{"id": "C42", "title": "Reading a file: tracks and notes", "statement": "MidiReader.read of a well-formed file with at most 128 instruments succeeds and yields exactly one track per instrument, under the instrument's position, with its program, drum flag and the file's resolution. The track's notes are, in order and unchanged, exactly the instrument's notes that are audible (start and end not within a relative 1e-9) and end no earlier than every audible note before them; each carries the time signature in force at its start. If the notes are listed by ascending end, exactly the inaudible ones are dropped; a note ending before an earlier audible note is lost. The total time is the end of the last audible note. A file with an audible note in an instrument beyond the 128th raises ValueError.", "quantifier": "all loaded files with in-range field values, any number of instruments and notes", "why_tests_cant": "unbounded files; which notes survive depends on the whole history of the instrument", "anchors": ["neural_graph_composer/midi_reader.py: MidiReader.read, read_instrument"]}
{"id": "C43", "title": "Reading a file: controller events", "statement": "When the file has an audible note, a track keeps exactly the pitch bends and control changes of its instrument that are not before the end of the last audible note of the whole file, unchanged and in order, and loses all earlier ones; when there is no audible note it keeps all of them.", "quantifier": "all well-formed loaded files", "why_tests_cant": "unbounded files", "anchors": ["neural_graph_composer/midi_reader.py: MidiReader.read, read_instrument_pitch_bends, read_instrument_control_changes"]}
{"id": "C44", "title": "Grouping notes by time partitions them", "statement": "compute_data (automatic tolerance) puts every non-drum note with non-zero velocity into exactly one group: the groups are the notes whose starts, snapped to the automatic tolerance (nearest multiple, ties to even, rounded to hundredths; unchanged for tolerance 0), hash equally, each in the order of the sequence, groups of one note dropped on request; silent and drum notes are in none; the sequence determines the groups; notes snapped to the same time start at most tolerance + 0.01 apart; the tolerance is the interpolated 95th percentile of the gaps between sorted starts (0 with fewer than two gaps); the reported size is that of the largest group; a sounding note with a negative start raises AssertionError.", "quantifier": "all note sequences, tolerances and hash functions", "why_tests_cant": "unbounded sequences of arbitrary times", "anchors": ["neural_graph_composer/midi_graph_builder.py: compute_data, compute_tolerance"]}
{"id": "C45", "title": "Graph edges count transitions", "statement": "build_sequence into a fresh graph yields the graph of the walk through the chords of the sequence: nodes are the chord hashes in order of first visit; for two different nodes a single edge, in the direction of the first transition between them, carries the number of transitions in both directions; a self loop counts immediate repetitions, that of the first chord one more; into an existing graph the walk continues from the node added last, adding to its weights; weights total the number of chords put in; no two nodes are joined in both directions.", "quantifier": "all sequences, configurations and graphs built before", "why_tests_cant": "unbounded walks", "anchors": ["neural_graph_composer/midi_graph_builder.py: build_sequence"]}
{"id": "C46", "title": "The built graph is connected and labelled", "statement": "With valid arguments and non-negative starts and pitches (below 127 for one-hot) build_sequence succeeds; any two nodes of the result are connected ignoring direction, and stay so when further sequences are put in; every node carries the feature, label and hash of a chunk of a chord of the sequence (feature rows: the pitches and the rescaled greatest velocities), or is an unchanged node of the given graph.", "quantifier": "all sequences, configurations and builder states", "why_tests_cant": "unbounded sequences", "anchors": ["neural_graph_composer/midi_graph_builder.py: build_sequence"]}
{"id": "C47", "title": "Class indices are a dense bijection", "statement": "After any history of build, build_sequence and graphs calls, successful or not, hash_to_index and index_to_hash are mutually inverse and number the hashes seen 1..n in the order first seen; an index never changes; after a build every chord of the sequence is indexed and the pitches recorded for its hash are those of a chord with that hash. The map from note sets to hashes holds, after a build, the hash of every chord of the sequence, whatever the order its pitches are given in.", "quantifier": "all histories of calls, failed ones included", "why_tests_cant": "unbounded histories", "anchors": ["neural_graph_composer/midi_graph_builder.py: build_sequence, build, graphs"]}
{"id": "C48", "title": "Chord chunking respects the feature size", "statement": "A chord's pitches are split into chunks that cover each distinct pitch exactly once, all of exactly the feature size except the last, which is non-empty and not longer.", "quantifier": "all non-empty chords and positive sizes", "why_tests_cant": "unbounded chords", "anchors": ["neural_graph_composer/midi_graph_builder.py: build_sequence"]}
{"id": "C49", "title": "Rescaled velocities stay in range and keep order", "statement": "rescale_velocities keeps the number of velocities and their relative order and yields values in 32..127: linear between least and greatest, rounded down; several equal velocities all become 32; a single one is mapped from 0..127 and rounded to nearest; an empty list raises.", "quantifier": "all velocity lists", "why_tests_cant": "unbounded lists", "anchors": ["neural_graph_composer/midi_graph_builder.py: rescale_velocities"]}
{"id": "C50", "title": "Feature tensors have fixed shape and content", "statement": "A pitch feature has exactly the feature size entries: the first pitches in order, zero padded; with velocities (at most that many, non-negative) a second such row; a one-hot feature has one row per pitch with a single one at the pitch, and raises when a pitch is not one of the classes. More velocities than entries raise RuntimeError and negative entries AssertionError; one-hot rows with velocities end in the velocity and need one velocity per pitch.", "quantifier": "all pitch and velocity lists and sizes", "why_tests_cant": "unbounded", "anchors": ["neural_graph_composer/midi_graph_builder.py: create_tensor"]}
{"id": "C51", "title": "Iterating built graphs yields the first graph only", "statement": "After any history, exhausting graphs() yields exactly the first stored graph (none if there is none) with the class indices of its nodes as targets (and labels unless skipped) and leaves the builder without graphs; before any chord was seen it raises ValueError; a consumer that takes only the first item gets that same graph again from later generators, whatever was built in between; with the sanity check on it raises AttributeError instead of yielding.", "quantifier": "all histories of calls", "why_tests_cant": "unbounded histories and generator suspensions", "anchors": ["neural_graph_composer/midi_graph_builder.py: graphs"]}
{"id": "C52", "title": "Split masks partition the nodes", "statement": "For any ratios the constructor accepts (non-negative, sum at most 1), any number of nodes and any random permutation, the train, validation and test masks have one entry per node, every node is in exactly one, and their sizes are floor(train*n), floor(val*n) and the rest; and whatever the two sizes round to, the masks remain a partition.", "quantifier": "all ratios, node counts and permutations", "why_tests_cant": "all permutations", "anchors": ["neural_graph_composer/midi_dataset.py: _mask_per_instrument, _mask_entire_graph"]}
{"id": "C53", "title": "Node hash index mapping is a stable bijection", "statement": "After any sequence of add_node_hash and merge_with, get_index and get_node_hash are mutually inverse, indices are 0..n-1 in first-seen order and never change once given; unknown hashes raise KeyError.", "quantifier": "all histories, including merges of mappers with histories of their own", "why_tests_cant": "unbounded histories", "anchors": ["neural_graph_composer/midi_dataset.py: NodeHashIndexMapper"]}
{"id": "C54", "title": "Processing stores the same graphs in both processed files", "statement": "When processing succeeds (with whatever conversion to PyG), the file for whole-file graphs holds the per-instrument graphs: the whole-file graphs computed are never stored; so loading with either flag returns the per-instrument graphs, the second file's index extends the first's, and no other file changes.", "quantifier": "all raw files, options, hooks, conversions and directories", "why_tests_cant": "all data", "anchors": ["neural_graph_composer/midi_dataset.py: process, load_processed"]}
{"id": "C55", "title": "The degree transform appends out-degrees", "statement": "AddDegreeTransform appends to every node's feature row (the features cut into equal rows, one per node) the number of edges leaving that node, changing nothing else but the directed mark; an edge source that is no node raises RuntimeError and leaves the object unchanged.", "quantifier": "all graphs", "why_tests_cant": "unbounded graphs", "anchors": ["neural_graph_composer/transforms.py: AddDegreeTransform.__call__"]}
{"id": "C56", "title": "Dropping nodes", "statement": "RandomNodeDrop with 0 <= p <= 1 removes exactly floor(p n) nodes, those drawn; features, targets and masks of the others stay in order; with edge attributes exactly the edges between kept nodes remain, with their attributes, but under their old node numbers, which still are row positions exactly for nodes before which nothing was dropped; without edge attributes the edge index becomes the list of sources and edge_attr the list of targets. For any p the number is int(p n), rounded towards 0, and a negative one counts from the end. filter_adj called without a number of nodes takes the greatest node number plus one and refuses greater nodes.", "quantifier": "all graphs, probabilities and random draws", "why_tests_cant": "unbounded graphs and all draws", "anchors": ["neural_graph_composer/transforms.py: RandomNodeDrop.__call__, filter_adj"]}
{"id": "C57", "title": "Dropping edges", "statement": "RandomEdgeDrop keeps exactly the edges whose draw is at least p, in order and with their attributes, and keeps features, targets, masks and hashes; objects without pos_edge_label are refused with an error, and so are objects whose label index has another number of columns than edges. With labels, the positive and negative label indices are restricted to the same kept edges. A missing attribute raises AttributeError.", "quantifier": "all graphs, probabilities and random draws", "why_tests_cant": "unbounded graphs and all draws", "anchors": ["neural_graph_composer/transforms.py: RandomEdgeDrop.__call__"]}
{"id": "C58", "title": "One-hot rows", "statement": "np_onehot returns one row of the given depth per index, true exactly at the position the index designates (negative indices counting from the end); any other index raises IndexError.", "quantifier": "all index lists and depths", "why_tests_cant": "unbounded", "anchors": ["neural_graph_composer/utils.py: np_onehot"]}
{"id": "C59", "title": "Threshold quantiser", "statement": "ft_quantize_to_nearest_step rounds the number of steps |t*sps| away from zero exactly if its fractional part is at least sps*threshold, toward zero otherwise, and restores the sign. Hence the documented rule (fraction at least threshold) holds for all times only if sps is 1 or the threshold 0, the result is a nearest step for all times only if sps*threshold is 1/2, and for sps*threshold >= 1 it truncates. It never reverses the order of times. Non-numbers raise TypeError, sps <= 0 or a threshold outside [0,1) ValueError, nothing else raises.", "quantifier": "all times, rates and thresholds", "why_tests_cant": "all rationals", "anchors": ["neural_graph_composer/midi/midi_utils.py: ft_quantize_to_nearest_step"]}
{"id": "C60", "title": "Vector quantisation picks a nearest grid value", "statement": "vector_quantize maps every note to the first grid entry at the smallest distance under the given metric; it raises only for an empty grid with at least one note; quantising its result again changes nothing when the metric separates points.", "quantifier": "all metrics, notes and grids", "why_tests_cant": "unbounded", "anchors": ["neural_graph_composer/midi/midi_utils.py: vector_quantize"]}
{"id": "C61", "title": "Compound intervals round-trip", "statement": "compound_interval_to_base(i) returns (b, o) exactly when base_to_compound_interval(b, o) returns i; the former splits every i >= 0 as 12*o+b with b in 0..11 and rejects i < 0, the latter rejects b outside 0..11 or o < 0, always with ValueError.", "quantifier": "all semitone counts", "why_tests_cant": "all integers", "anchors": ["neural_graph_composer/midi/midi_scales.py: compound_interval_to_base, base_to_compound_interval"]}
{"id": "C62", "title": "Scales follow their steps on every root", "statement": "notes_from_scale(root, scale) returns seven names, the i-th being the note (root + sum of the first i steps) mod 12, whatever order the interval set is iterated in; results for two roots are transpositions of each other. It succeeds exactly for the twelve capital note names and the known scales; every integer root and every lower-case name is refused, always with ValueError. The two tables of each scale agree and its steps sum to 12; intervals_from_scale accepts a member or its name in any case and otherwise raises KeyError.", "quantifier": "all roots, all scales, all set iteration orders", "why_tests_cant": "whole tables and all roots", "anchors": ["neural_graph_composer/midi/midi_scales.py: MusicTheory.notes_from_scale, intervals_from_scale, scales, scale_intervals"]}
{"id": "C63", "title": "Pitch naming", "statement": "pitch_to_note maps pitch p to the name of p mod 12 followed by p div 12 in decimal (floor division, so negative pitches get negative octaves), never fails, and is injective.", "quantifier": "all pitches", "why_tests_cant": "all integers", "anchors": ["neural_graph_composer/midi/midi_scales.py: pitch_to_note"]}
{"id": "C64", "title": "Loading restores the checkpoint of the greatest epoch", "statement": "After any history of training, checkpoint saves (in any order of epochs, for any models), loads and metric updates, load_checkpoint restores the model and optimizer states saved with the greatest epoch for that model (the last save of that epoch), independently of the order in which files are listed, sets start and current epoch to the next one and leaves all files as they were; with no checkpoint nothing changes; saving never fails and different epochs get different files.", "quantifier": "all histories and file listing orders", "why_tests_cant": "unbounded histories", "anchors": ["ngc_shared.py: Experiments.save_checkpoint, load_checkpoint"]}
{"id": "C65", "title": "Removing nodes", "statement": "remove_nodes_and_edges keeps exactly the feature rows of the nodes not chosen and the edges between them under their old numbers; edge attributes, targets and masks stay as they were, so that they no longer match. A ratio that would remove more than all or fewer than no nodes is refused with an error.", "quantifier": "all graphs, ratios and choices", "why_tests_cant": "unbounded graphs and all draws", "anchors": ["ngc_shared.py: Experiments.remove_nodes_and_edges"]}
{"id": "C66", "title": "Point and range queries on the interval tree never find a member", "statement": "In a tree with any history of ordinary intervals, overlaps(p) and overlaps(b, e) are false for every point and range, although members may cover them; at(p), tree[p], overlap(b, e) and tree[b:e] with numbers raise AttributeError whenever the tree has a member, and so do the half-open slices tree[b:], tree[:e] that reach a member; tree[:] returns exactly the members and an empty range returns the empty set.", "quantifier": "every history of calls, every point and range", "why_tests_cant": "Failure for every history and query point cannot be enumerated by examples", "anchors": ["neural_graph_composer/interval/intervaltree.py: overlaps_point, overlaps_range, at, overlap, __getitem__; interval/node.py: contains_point, search_point"]}
{"id": "C67", "title": "Merging never merges intervals of a tree", "statement": "For every history, merge_overlaps raises NameError and leaves the tree unchanged exactly when two members overlap (or touch, non-strict); merge_equals exactly when two distinct members have the same begin and end; merge_neighbors(distance, strict) exactly when some member and the next one in (begin, end, data) order are at most distance apart (overlapping ones only if not strict). Otherwise they succeed and the members stay the same.", "quantifier": "every history of calls", "why_tests_cant": "quantifies over all reachable trees and pairs of members", "anchors": ["neural_graph_composer/interval/intervaltree.py: merge_overlaps, merge_equals, merge_neighbors"]}
{"id": "C68", "title": "Constructing a tree from a collection", "statement": "FloatIntervalTree(ivs) with ordinary intervals returns a tree whose members and nodes are exactly those intervals, with search-tree order and true recorded depths; a null interval makes it raise ValueError; a collection consisting of one interval whose ends are within 1e-9 makes it recurse without end.", "quantifier": "every collection of intervals, every recursion limit", "why_tests_cant": "sizes and recursion depth are unbounded", "anchors": ["neural_graph_composer/interval/intervaltree.py: __init__; interval/node.py: from_intervals, init_from_sorted"]}
{"id": "C69", "title": "Time signatures: acceptance and beats per measure", "statement": "A time signature is accepted exactly when the numerator is positive and the denominator a power of two, otherwise ValueError; beats_per_measure is numerator*denominator/4 for denominators above 1 and the numerator over 1 (so 6/8 gives 12, not the documented 2).", "quantifier": "all integers as numerator and denominator", "why_tests_cant": "unbounded integers", "anchors": ["neural_graph_composer/midi/midi_time_signature.py:MidiTimeSignature"]}
{"id": "C70", "title": "Copying a control change forgets its drum flag and step", "statement": "make_copy of a control change with any history keeps number, value, program, instrument and quantised start/end steps, clamps a negative time to 0, but resets the drum flag to False and the quantised step to 4; the copy equals the original exactly when those did not matter.", "quantifier": "all control changes and call histories", "why_tests_cant": "all histories of setter calls", "anchors": ["neural_graph_composer/midi/midi_control_change.py:MidiControlChange.make_copy"]}
{"id": "C71", "title": "Quantising a sequence", "statement": "quantize raises and leaves notes, controllers and total time unchanged for every sequence that holds a control change; without control changes and with valid notes, rate >= 1 and amount in (0,1], it succeeds, replaces every shown note in order by its quantised version and sets total_time to the latest end. Failing or not, the step counter becomes the largest of its old value and the end steps that the notes, up to the first one that cannot be quantised, had before the call.", "quantifier": "all sequences, rates and amounts", "why_tests_cant": "the outcome depends on every note and controller in the sequence", "anchors": ["neural_graph_composer/midi/midi_sequence.py:MidiNoteSequence.quantize", "neural_graph_composer/midi/midi_sequence.py:MidiNoteSequence._quantize"]}
{"id": "C72", "title": "Cloning a sequence", "statement": "clone() of a pitched sequence shows the same notes, total time, control changes, pitch bends, instrument and resolution; clone() of a drum sequence shows no note at all although its total time is kept.", "quantifier": "all sequences", "why_tests_cant": "must hold for every content of the sequence", "anchors": ["neural_graph_composer/midi/midi_sequence.py:MidiNoteSequence.clone", "neural_graph_composer/midi/midi_sequence.py:MidiNoteSequence.clone_empty"]}
{"id": "C73", "title": "Inserting into and cutting a sequence", "statement": "insert adds exactly the given note, keeps an ordered sequence ordered when no two times differ by less than the tolerance, and recomputes total_time as the latest end; cut_in_place(k) leaves exactly the Python prefix [:k] with total_time its latest end; cut(k) returns that prefix as a new sequence whose total time is the old one or the end of its last note if that is earlier, and raises IndexError when it is empty.", "quantifier": "all sequences, notes and integers k (negative included)", "why_tests_cant": "all contents and positions", "anchors": ["neural_graph_composer/midi/midi_sequence.py:MidiNoteSequence.insert", "neural_graph_composer/midi/midi_sequence.py:MidiNoteSequence.cut", "neural_graph_composer/midi/midi_sequence.py:MidiNoteSequence.cut_in_place"]}
{"id": "C74", "title": "Pitch sequence of a sequence", "statement": "as_note_seq returns the pitches in ascending order of start time (ties in original order), and leaves in the sequence the same notes, reordered that way, with total_time unchanged.", "quantifier": "all sequences", "why_tests_cant": "all note orders and ties", "anchors": ["neural_graph_composer/midi/midi_sequence.py:MidiNoteSequence.as_note_seq"]}
{"id": "C75", "title": "Smallest step between notes", "statement": "calculate_min_step of a sequence of valid notes is 0 when no two notes consecutive by start are separated by silence, and otherwise the smallest start-to-start distance over such pairs, which is positive.", "quantifier": "all sequences of valid notes", "why_tests_cant": "minimum over all pairs of arbitrarily long sequences", "anchors": ["neural_graph_composer/midi/midi_sequence.py:MidiNoteSequence.calculate_min_step"]}
{"id": "C76", "title": "Signature slices", "statement": "slice_time_signatures(u), slice_key_signatures(u) and slice_tempo_signature(u) yield exactly the entries with time <= u, in order (all of them if u is None); slice_tempo_signature treats u = 0 as no bound.", "quantifier": "all signature histories and bounds", "why_tests_cant": "unbounded histories and real-valued bounds", "anchors": ["neural_graph_composer/midi/midi_sequences.py: slice_time_signatures, slice_key_signatures, slice_tempo_signature"]}
{"id": "C77", "title": "Assigning a track and reading it back", "statement": "After any history, seqs[i] = q raises ValueError and changes nothing for i outside 0..127; otherwise it replaces only track i and get_track(i) returns q. Reading seqs[i] back returns q if track i was created before, but a new empty track if id i was never registered. Assigning a list of notes stores a sequence holding exactly these notes, with the latest end as total time.", "quantifier": "all histories, ids and sequences", "why_tests_cant": "unbounded histories", "anchors": ["neural_graph_composer/midi/midi_sequences.py: __setitem__, __getitem__, get_track, set_sequence"]}
{"id": "C78", "title": "initial_tempo", "statement": "The first read of initial_tempo is the tempo last added at time 0 (120 if none); every later read repeats that value whatever tempo signatures are added in between.", "quantifier": "all histories of tempo additions and reads", "why_tests_cant": "unbounded histories", "anchors": ["neural_graph_composer/midi/midi_sequences.py: initial_tempo, add_tempo_signature"]}
{"id": "C79", "title": "truncate and is_sorted on a multi-track object", "statement": "After any history of track calls that leaves every note with start before end, truncate never changes a track. Without from_start it returns the latest end of all notes (ValueError if there are none); with from_start f < 0 it raises ValueError; with f >= 0 it returns None if every note ends after f, raises AttributeError if every note ends by f, and never returns a time. is_sorted is true exactly for lists in ascending key order.", "quantifier": "all histories and times; all lists", "why_tests_cant": "unbounded histories and lists", "anchors": ["neural_graph_composer/midi/midi_sequences.py: truncate, trim, is_sorted"]}
{"id": "C81", "title": "Which controllers a loaded instrument has", "statement": "If a channel of a track has a controller event before its first note-on, or its program does not change from its first note-on or controller on, then every instrument of that channel and track holds exactly all pitch bends and control changes of the channel, in order (several programs share them); channels that never complete a note have no instrument, so their controllers are lost.", "quantifier": "all files, tracks, channels and programs", "why_tests_cant": "unbounded event lists; aliasing of shared lists between instruments", "anchors": ["neural_graph_composer/custom_pretty_midi.py: _load_instruments.__get_instrument"]}
{"id": "C82", "title": "Loaded tracks have no overlapping notes", "statement": "In a loaded track no note ends after a note that started later than it has started, even when they are on different channels: sustained notes are cut.", "quantifier": "all files, tracks and pairs of notes", "why_tests_cant": "unbounded event lists", "anchors": ["neural_graph_composer/custom_pretty_midi.py: _finish_notes, _load_instruments"]}
{"id": "C80", "title": "get_tempo_changes reports the tempo in force", "statement": "After any calls, get_tempo_changes of a loaded file lists changes in ascending time from time 0, and for every tick the last listed change at or before the tick's time is the tempo (60e6 / microseconds per quarter) of the last tempo event at or before that tick, or 120.", "quantifier": "all tempo event lists, histories and ticks", "why_tests_cant": "unbounded lists and histories", "anchors": ["neural_graph_composer/custom_pretty_midi.py: get_tempo_changes"]}
{"id": "C83", "title": "Writing and loading an instrument preserves it", "statement": "For an instrument with MIDI-range values whose notes last at least a tick, have distinct pitches when struck together and do not sound on when a later one is struck, loading the written file gives in its track exactly one instrument (none if it has no notes) with the same program, drum flag, notes (as a multiset) and controllers (as a multiset, in order of time), whatever the other instruments and the timing track are.", "quantifier": "all files of instruments, positions, and instruments with the stated conditions", "why_tests_cant": "unbounded note lists; composition of two stateful conversions", "anchors": ["neural_graph_composer/custom_pretty_midi.py: serialize, from_file, _load_instruments"]}
{"id": "C84", "title": "Writing and loading preserves the tempo, in exact arithmetic", "statement": "The tempo events written for the tempo map of a loaded file are ascending and positive and put in force at every tick the tempo of the events the file was loaded from, if the arithmetic is exact. (In double precision one microsecond can be lost: C158.)", "quantifier": "all resolutions, tempo event lists and ticks", "why_tests_cant": "unbounded lists", "anchors": ["neural_graph_composer/custom_pretty_midi.py: _load_tempo_changes, serialize"]}
{"id": "C85", "title": "Channel assignment on writing", "statement": "An instrument is written on the drum channel iff it is a drum, always on a channel in 0..15, and any 15 consecutive non-drum instruments get pairwise different channels; a drum channel outside 0..15 raises ValueError.", "quantifier": "all drum channels, instrument lists and positions", "why_tests_cant": "unbounded lists", "anchors": ["neural_graph_composer/custom_pretty_midi.py: serialize"]}
{"id": "C86", "title": "Converting back or writing needs to_end", "statement": "to_pretty_midi without to_end always raises (ValueError for a multi-track object without notes, TypeError otherwise), so write without to_end always raises; write to an existing file without overwrite raises FileExistsError before anything is converted. In general write raises ValueError for an object without tracks or an empty name, FileExistsError for an existing file without overwrite, ValueError for a negative bound or to_end below from_start (equal bounds pass), and only otherwise converts.", "quantifier": "all multi-track objects, file names, from_start and overwrite arguments", "why_tests_cant": "all object contents", "anchors": ["neural_graph_composer/midi_reader.py: MidiReader.to_pretty_midi, write", "neural_graph_composer/midi_sequences.py: truncate"]}
{"id": "C87", "title": "Reading and converting back", "statement": "For a well-formed file with an audible note, reading it and building the output instruments with any to_end gives an empty instrument followed by one instrument per input instrument, with program 0, the same drum flag, exactly the surviving notes and no pitch bend or control change (the program and every controller event are lost).", "quantifier": "all well-formed loaded files and to_end values", "why_tests_cant": "unbounded files", "anchors": ["neural_graph_composer/midi_reader.py: MidiReader.read, to_pretty_midi"]}
{"id": "C88", "title": "Chords are visited by the hash of their time, not by time", "statement": "With CPython's float hash, times that are multiples of 2^-j (j <= 60) are ordered by fractional part first and integer part second; hence chords at times with a smaller fractional part are visited before all others, whatever their time.", "quantifier": "all sequences and all dyadic times", "why_tests_cant": "all times", "anchors": ["neural_graph_composer/midi_graph_builder.py: build_sequence, compute_data"]}
{"id": "C89", "title": "Tolerance and velocity buckets do not influence the graph", "statement": "build_sequence gives the same graph for every accepted tolerance (0..1) and number of velocity buckets (>= 1); any argument out of range raises ValueError and leaves the builder as it was.", "quantifier": "all sequences, builder states and argument values", "why_tests_cant": "all argument values", "anchors": ["neural_graph_composer/midi_graph_builder.py: build_sequence"]}
{"id": "C90", "title": "One graph per instrument or one for all", "statement": "build per instrument appends, in track order, one graph per non-drum track whose note count is not one and which has a chord, each being the graph of that track alone; otherwise it appends a single graph in which each such track's walk continues from the node added last (none if no track qualifies); it succeeds when the conversion does and the notes are acceptable.", "quantifier": "all multi-track objects, builder states and conversion outcomes", "why_tests_cant": "unbounded numbers of tracks", "anchors": ["neural_graph_composer/midi_graph_builder.py: build"]}
{"id": "C91", "title": "Edge index and weights of a graph", "statement": "The edge index of a graph lists every edge exactly once by the positions of its ends among the nodes, with the edge's weight at the same place of the weight list, and nothing else.", "quantifier": "all graphs", "why_tests_cant": "unbounded graphs", "anchors": ["neural_graph_composer/midi_graph_builder.py: from_midi_networkx"]}
{"id": "C92", "title": "Connection queries and their direction", "statement": "is_connected(g,u,v) is true exactly when there is an edge from v to u and raises KeyError when v is no node; get_edge_connected(g,u,v) returns the edge from u to v if there is one and None otherwise; order and repetitions of the pitches given do not matter.", "quantifier": "all graphs and pitch lists", "why_tests_cant": "unbounded", "anchors": ["neural_graph_composer/midi_graph_builder.py: is_connected, get_edge_connected"]}
{"id": "C93", "title": "Merging nodes", "statement": "merge_nodes replaces the given distinct nodes by a new node greater than all others; it carries, for every remaining node, the weight of the last of their edges to it; edges that led into the merged nodes and edges among them are dropped, all others stay; naming a node that is not in the graph raises KeyError.", "quantifier": "all graphs and node lists", "why_tests_cant": "unbounded graphs", "anchors": ["neural_graph_composer/midi_graph_builder.py: merge_nodes"]}
{"id": "C94", "title": "Notes that cannot be encoded", "statement": "With one-hot features a sounding note of pitch 127 (or outside 0..126) makes build_sequence raise RuntimeError; a sounding note with negative start raises AssertionError and leaves the builder as it was.", "quantifier": "all sequences holding such a note", "why_tests_cant": "all sequences", "anchors": ["neural_graph_composer/midi_graph_builder.py: build_sequence, create_tensor, compute_data"]}
{"id": "C95", "title": "One-hot piano roll", "statement": "pretty_midi_to_one_hot has 128 rows and one column per 1/fs up to the latest end time of an instrument; an entry is 1 exactly if for one of the instruments the last event of that pitch in that column is a note start (a note that ends in its own start column, or whose start column holds the end of a note listed later, leaves no trace), otherwise 0; without instruments it raises ValueError.", "quantifier": "all instruments, notes and sampling rates", "why_tests_cant": "unbounded note lists", "anchors": ["neural_graph_composer/utils.py: pretty_midi_to_one_hot"]}
{"id": "C96", "title": "Train/test split of a dataset", "statement": "Experiments.split puts every graph of the dataset into exactly one of the two parts, floor(ratio n) into the training part. A ratio that would take more than all or fewer than no graphs is refused with an error.", "quantifier": "all datasets, ratios and permutations", "why_tests_cant": "unbounded datasets and all draws", "anchors": ["ngc_shared.py: Experiments.split"]}
{"id": "C97", "title": "Metrics are written under wrong names and never restored", "statement": "load_checkpoint never changes the metric lists as long as the metrics directory is not the empty string; with the empty string, loading after training metrics were written raises KeyError; update_metrics appends exactly the given values to the training lists, but the file it writes when due holds the validation lists; so does the test file (plus test areas and precisions); update_val_metric raises RuntimeError when due and the directory does not exist, after appending. Files are written exactly when saving is on and the rate is not 0 and divides the current epoch; otherwise updates raise and write nothing. clear_metric empties every list and changes nothing else.", "quantifier": "all trainers, histories and values", "why_tests_cant": "all states and histories", "anchors": ["ngc_shared.py: Experiments.load_checkpoint, update_metrics, update_test_metric, update_val_metric"]}
{"id": "C98", "title": "An interrupted save blocks loading", "statement": "If the save of the greatest epoch was interrupted (crash while writing), load_checkpoint raises and leaves model, optimizer and epochs as they were, although older complete checkpoints exist.", "quantifier": "all histories and crash points", "why_tests_cant": "all crash points in unbounded histories", "anchors": ["ngc_shared.py: Experiments.save_checkpoint, load_checkpoint"]}
{"id": "C99", "title": "Frame indices of an event", "statement": "frames_from_times without occupancy threshold returns the tightest frame range covering the event; it raises ValueError exactly for negative times or an event that contains no frame. With a threshold in (0,1] and fps >= 1 the first frame is skipped exactly if the event occupies it for less than the threshold, the end moves down by one or two frames but never before the start.", "quantifier": "all times, rates and thresholds", "why_tests_cant": "all rational times and rates", "anchors": ["neural_graph_composer/midi/midi_utils.py: frames_from_times"]}
{"id": "C100", "title": "Quantising to steps of a measure", "statement": "quantize_to_nearest_step with positive step size, tempo and beats never raises and returns the nearest multiple of a step of ceil(480*beats/step_size) ticks; it moves a time by at most half a step, is idempotent and keeps the order of times.", "quantifier": "all times and positive parameters", "why_tests_cant": "all rational times", "anchors": ["neural_graph_composer/midi/midi_utils.py: quantize_to_nearest_step"]}
{"id": "C101", "title": "Grid quantisation of a note", "statement": "quantize_note_to_step_grid moves start and end to the nearest step plus (grid - floor(grid/step)*step) for every whole grid before it: within half a step if the grid is a whole number of steps, with unbounded error otherwise. Start never ends up after end. It raises exactly for negative times or a grid shorter than a step.", "quantifier": "all times, positive steps and grids", "why_tests_cant": "the error grows with time, all rationals", "anchors": ["neural_graph_composer/midi/midi_utils.py: quantize_note_to_step_grid"]}
{"id": "C102", "title": "Interpolating quantiser mixes units", "statement": "interpolates_quantize returns whole grids in seconds plus remaining steps in ticks, so for a grid of n steps its result exceeds the nearest step's time by (k mod n)(step - step/ticks_per_second). quantize_and_snap_to_grid raises for every input.", "quantifier": "all times, tempos and grids of whole steps", "why_tests_cant": "all rationals", "anchors": ["neural_graph_composer/midi/midi_utils.py: interpolates_quantize, quantize_and_snap_to_grid"]}
{"id": "C103", "title": "Decimal quantiser", "statement": "quantize_to_nearest_step_alt returns the integer nearest to t*sps - threshold, ties away from zero; with threshold 1/2 it drops the fraction of every positive number of steps and returns -1 for time 0.", "quantifier": "all times, rates and thresholds", "why_tests_cant": "all rationals", "anchors": ["neural_graph_composer/midi/midi_utils.py: quantize_to_nearest_step_alt"]}
{"id": "C104", "title": "Tempo conversions", "statement": "Steps per second are bpm*resolution/60; the conversions via quarters agree (sps from bpm with denominator d equals sps from bpm/d quarters; qpm_to_bpm inverts that division), bpm_to_qpm followed by qpm_to_bpm multiplies by d*d/60 instead of returning the tempo, and the rounded variant differs by at most 5e-11.", "quantifier": "all tempos, resolutions and non-zero denominators", "why_tests_cant": "all rationals", "anchors": ["neural_graph_composer/midi/midi_utils.py: steps_per_second_from_bpm, from_bpm_spq_to_sps, from_spq_to_sps, bpm_to_qpm, bpm_to_qpm_np, qpm_to_bpm"]}
{"id": "C105", "title": "Chord pitches from intervals", "statement": "chord_pitch_from_interval(root, intervals) returns (root + semitones) mod 12 for each interval in order, for a root 0..11 or a note name in either case. A collection mixing names and members raises TypeError, a bad root ValueError, an interval beyond an octave or an unknown name KeyError. Interval names are upper-cased first, so 'm3' means 'M3'.", "quantifier": "all roots and interval collections", "why_tests_cant": "unbounded collections of arbitrary strings", "anchors": ["neural_graph_composer/midi/midi_scales.py: MusicTheory.chord_pitch_from_interval, Interval"]}
{"id": "C106", "title": "Chord naming inverts chord lookup", "statement": "A name returned by get_chord_name or get_chord_name_from_intervals has exactly the given intervals; conversely each chord's intervals are named back to it, except aug7 (first lookup) and M7 (second), which share [4,3,4]; the two lookups agree on a list iff it is not [4,3,4].", "quantifier": "all interval lists and names", "why_tests_cant": "all integer lists", "anchors": ["neural_graph_composer/midi/midi_scales.py: get_chord_intervals, get_chord_name, get_chord_name_from_intervals"]}
{"id": "C107", "title": "Triads of a scale", "statement": "triads_from_scale_tuple returns seven triads, the i-th made of scale degrees i, i+2, i+4 (cyclically) on the given root, and triads_from_scale returns the same triads with names joined, for any root 0..11 or name in either case and any set iteration order. The reported chord type is the type of the notes at every degree exactly for the scales MAJOR, MINOR, LYDIAN, AEOLIAN, HARMONIC_MINOR and MELODIC_MINOR. Unknown scales raise ValueError; bad roots raise ValueError (ints) or KeyError (names).", "quantifier": "all roots, scales and set iteration orders", "why_tests_cant": "all strings as roots and scales, all iteration orders", "anchors": ["neural_graph_composer/midi/midi_scales.py: triads_from_scale, triads_from_scale_tuple, chords, chord_name_mapping"]}
{"id": "C108", "title": "Interval arithmetic", "statement": "from_semitones accepts exactly 0..22 and returns the interval of that size; compound_interval_from_bases returns the interval a+b, or ValueError when it exceeds 22; the bases of an interval sum to it, and its inverse is 12 per base minus the interval, equal to 12-i only for unison and octave.", "quantifier": "all intervals and all integers", "why_tests_cant": "all integers, whole table", "anchors": ["neural_graph_composer/midi/midi_scales.py: Interval.from_semitones, compound_interval_from_bases, bases, inverse_compound_interval"]}
{"id": "C109", "title": "Chords by name", "statement": "chord_from_scale(root + c) for c in M, m, 7, 6 returns the chord's notes on that root; an unknown root raises ValueError, type 9 KeyError, any other character AssertionError (longer types are thus never understood). chord_from_scale_name_extended returns all 23 chord names for every root and scale, i.e. filters nothing, and list_of_chords raises unless its interval collection is empty and its root in 0..11.", "quantifier": "all root strings, characters, scales and iteration orders", "why_tests_cant": "all strings", "anchors": ["neural_graph_composer/midi/midi_scales.py: chord_from_scale, chord_from_scale_name_extended, list_of_chords"]}
{"id": "C110", "title": "Conversion to PyG needs numeric node features", "statement": "from_midi_networkx succeeds exactly when there is a node, an edge and every node's attr is a number, keeping nodes, edges and weights in order; so it raises for every graph the builder makes (whose features are tensors), with AttributeError for a graph from build_sequence.", "quantifier": "all node features, edges and all sequences and arguments", "why_tests_cant": "all graphs; the positive case cannot be reached through the builder", "anchors": ["neural_graph_composer/midi_graph_builder.py: from_midi_networkx, build_sequence"]}
{"id": "C111", "title": "What a processed dataset holds", "statement": "When processing succeeds (without the sanity check), a dataset has one graph per raw file, in order: that of the file's first qualifying track, with each node's number in the stored index as target, unless the file cannot be read because of a KeyError, has no qualifying track, or the pre-filter rejects the graph; masks and pre-transform are applied in that order; the stored indices number the distinct node hashes from 1.", "quantifier": "all raw files, options, filters, transforms and conversions", "why_tests_cant": "unbounded files and graphs", "anchors": ["neural_graph_composer/midi_dataset.py: process, _mask_per_instrument, _mask_entire_graph", "neural_graph_composer/midi_graph_builder.py: build, graphs"]}
{"id": "C112", "title": "Processing can be interrupted and repeated", "statement": "If processing stops at any point between file writes, running it again with the same inputs gives the same result and files; both files are present only if they hold the same graphs; no other file is touched.", "quantifier": "all crash points between writes, inputs and directories", "why_tests_cant": "every crash point", "anchors": ["neural_graph_composer/midi_dataset.py: process, processed_file_exists, load_processed"]}
{"id": "C113", "title": "At this commit no dataset is ever processed", "statement": "Unless both processed files are already there, processing raises and writes nothing, because the conversion to PyG fails for every graph; with the sanity check on, this is so even if the conversion worked. So it does when a raw file is missing: the first pass raises FileNotFoundError, which the second would skip; a file whose reading raises KeyError is skipped by both.", "quantifier": "all raw files, options and directories", "why_tests_cant": "all inputs", "anchors": ["neural_graph_composer/midi_dataset.py: process", "neural_graph_composer/midi_graph_builder.py: from_midi_networkx, graphs"]}
{"id": "C114", "title": "Processed files are identified by three options only", "statement": "The names of the processed files differ exactly when the velocity flag, feature size or tolerance differ, and the two names always differ; a dataset whose files exist is loaded unchanged whatever the raw files, ratios, filter, transform and other options; otherwise it is processed afresh.", "quantifier": "all options and directories", "why_tests_cant": "all pairs of options", "anchors": ["neural_graph_composer/midi_dataset.py: processed_file_names, processed_file_exists, load_processed, __init__"]}
{"id": "C115", "title": "Interval trees obey set algebra", "statement": "|, &, - and ^ on two interval trees, and their in-place forms, never raise and give exactly the union, intersection, difference and symmetric difference of the members; the result goes on behaving as a set under add, discard, len and further operators. (The named methods union, intersection, difference and copy always raise NameError.)", "quantifier": "all pairs of trees produced by any number of constructor, method and operator calls on ordinary intervals", "why_tests_cant": "all histories of both operands", "anchors": ["neural_graph_composer/interval/intervaltree.py: FloatIntervalTree(collections.abc.MutableSet), __init__, add, discard, difference_update"]}
{"id": "C116", "title": "Interval trees compare as sets, and pop removes one member", "statement": "<=, <, >=, > and isdisjoint decide inclusion, strict inclusion and disjointness of the members; pop raises KeyError and changes nothing on an empty tree, and otherwise returns a member and removes exactly that one, whichever the iteration order gives.", "quantifier": "all pairs of trees of any history, all iteration orders", "why_tests_cant": "all histories and orders", "anchors": ["neural_graph_composer/interval/intervaltree.py: FloatIntervalTree, __contains__, __len__, __iter__, discard"]}
{"id": "C117", "title": "The named in-place updates work only when nothing has to go", "statement": "t.intersection_update(u) does nothing if t is a subset of u and otherwise raises ValueError, leaving t unchanged; t.symmetric_difference_update(u) gives the union if they are disjoint and otherwise raises ValueError, leaving t unchanged.", "quantifier": "all pairs of trees of any history", "why_tests_cant": "all histories", "anchors": ["neural_graph_composer/interval/intervaltree.py: intersection_update, symmetric_difference_update, remove"]}
{"id": "C118", "title": "Range operations depend on whether anything was ever added", "statement": "On a tree to which nothing has been added since it was made or cleared, at, overlap, envelop, remove_overlap, remove_envelop, chop, slice with any numbers succeed, find nothing and change nothing, and verify passes; once an interval has been added, even if discarded since, the point operations and all non-empty ranges raise AttributeError and change nothing, empty ranges find nothing, and verify never passes; at(interval) always finds nothing; split_overlaps does nothing if all members have the same range and otherwise raises AttributeError, changing nothing.", "quantifier": "all histories of calls, all numbers, ranges and intervals", "why_tests_cant": "all histories", "anchors": ["neural_graph_composer/interval/intervaltree.py: at, overlap, envelop, remove_overlap, remove_envelop, chop, slice, split_overlaps, verify", "neural_graph_composer/interval/node.py: search_point, search_overlap"]}
{"id": "C119", "title": "Chord tables spell the chords their symbols name", "statement": "For every chord symbol known to get_chord_intervals, climbing the reported steps from the root gives the notes the symbol stands for in music theory, except for aug7 (whose steps are those of M7); the interval table that chord_from_scale builds chords from gives the same notes except for dim7 (a minor instead of a diminished seventh) and 13, M13, m13 (which leave out the eleventh). Both tables know exactly the symbols of the standard list.", "quantifier": "all strings given as chord symbol", "why_tests_cant": "a test fixes some symbols; this ranges over all strings and pins every entry", "anchors": ["neural_graph_composer/midi/midi_scales.py: MusicTheory.chord_intervals, chord_intervals_mapping, get_chord_intervals"]}
{"id": "C120", "title": "Interval names have their music-theoretic size", "statement": "Every member of Interval is the tritone or is named by a quality (P, M, m, A, d) and a number 1..14; its value is the number of semitones that name means (from the major scale, with perfect numbers 1, 4, 5 and compounds) exactly unless it is one of d7, d12, M11, m11, P13, A13, m14, M14.", "quantifier": "all interval names", "why_tests_cant": "ranges over all names against an independent rule", "anchors": ["neural_graph_composer/midi/midi_scales.py: Interval"]}
{"id": "C121", "title": "get_beats returns an ordered list of beats from the start time to the end of the piece", "statement": "For every tempo map with positive tempi (every loaded file has one), every list of time signatures with positive numerator and denominator and no tempo change within the np.isclose tolerance before a signature change, and every start time, get_beats(start) returns; its beats are in ascending order (strictly if the signature changes are at different times), the first is start, all lie before get_end_time(), and the list is empty only if start is not before the end. get_end_time is the latest of the instrument ends, meta events and tempo changes.", "quantifier": "all tempo maps, signature lists, start times", "why_tests_cant": "termination and order for every combination of tempo and signature changes", "anchors": ["neural_graph_composer/custom_pretty_midi.py: get_beats, get_end_time, get_tempo_changes"]}
{"id": "C122", "title": "Consecutive beats are exactly one beat of music apart", "statement": "With no time signature, or one at or before the start, the music played between consecutive beats (tempo integrated over time, across any number of tempo changes) is exactly one beat: a quarter note without signature, otherwise the denominator note, or three of them for compound meters. (With several signatures it can fail: after a signature change the beats may follow a tempo that starts later.)", "quantifier": "all tempo maps, meters, start times, pairs of consecutive beats", "why_tests_cant": "any number of tempo changes may fall inside one beat", "anchors": ["neural_graph_composer/custom_pretty_midi.py: get_beats"]}
{"id": "C123", "title": "Beats follow the signature in force and meet every signature change", "statement": "With a single tempo and signature changes at different times, each beat follows its predecessor by one beat of the signature in force, or is placed on a signature change that comes first (or is within tolerance). With any tempo map, every signature change strictly inside the piece (changes not within tolerance of one another) is itself a beat.", "quantifier": "all signature lists, start times, beats", "why_tests_cant": "unbounded lists of signature changes", "anchors": ["neural_graph_composer/custom_pretty_midi.py: get_beats"]}
{"id": "C124", "title": "Downbeats are the first beats of the bars", "statement": "Every downbeat of get_downbeats(start) is a beat of get_beats(start) at or after start. If signature changes are not within tolerance of each other or of the start and lie before the end of the piece, the downbeats are exactly: the first beat, each signature change, and from there every n-th beat, n being the numerator (a third of it for compound meters; 4 before any signature). (A signature change exactly at the end re-bars the whole last section.)", "quantifier": "all tempo maps, signature lists, start times", "why_tests_cant": "bar counting over any number of signature changes", "anchors": ["neural_graph_composer/custom_pretty_midi.py: get_downbeats"]}
{"id": "C125", "title": "Note lengths in steps and steps in seconds", "statement": "step_duration_in_samples and compute_step_duration_in_seconds raise ValueError for a note that is not quantised; otherwise the first is end step - start step + 1 and the second (end step - start step)/sps, ValueError for sps <= 0. steps_to_seconds(steps, sps) is steps/sps rounded to the nearest 1e-5 (ties away from zero), an error for sps = 0, and quantize_to_nearest_step at the default amount takes the result back to the step for every sps < 100000 (at amount 1 it may lose a step).", "quantifier": "all notes, step counts and rates", "why_tests_cant": "unbounded steps and rates; rounding ties", "anchors": ["neural_graph_composer/midi/midi_note.py: step_duration_in_samples, compute_step_duration_in_seconds, steps_to_seconds, quantize_to_nearest_step"]}
{"id": "C126", "title": "Beat arithmetic of a note", "statement": "beat_duration(tempo) is 60/tempo * numerator/denominator and duration_in_seconds(tempo) is 60 * duration/tempo, both ZeroDivisionError at tempo 0. bpm() is 120 * denominator/numerator whatever the times are, and NaN for a note not longer than one beat at 120. is_four_quarter_note() is true exactly for 4/4 notes whose duration is 60 seconds up to a relative 1e-9.", "quantifier": "all notes and tempi", "why_tests_cant": "all times and signatures", "anchors": ["neural_graph_composer/midi/midi_note.py: beat_duration, duration_in_seconds, bpm, is_four_quarter_note"]}
{"id": "C127", "title": "Notes from JSON dictionaries", "statement": "from_json of a dictionary with every key behaves exactly like the constructor. Without one of pitch, start_time, end_time, program, instrument, velocity it raises KeyError; without numerator or denominator AssertionError; without a start step TypeError, and without an end step TypeError unless the start step is negative. A missing is_drum means False; a missing voice is stored as None.", "quantifier": "all dictionaries with well-typed entries", "why_tests_cant": "all combinations of missing keys and values", "anchors": ["neural_graph_composer/midi/midi_note.py: from_json"]}
{"id": "C128", "title": "Pitch frequencies", "statement": "note_to_freq is equal temperament: 440 Hz at note 69, doubling every 12 notes, the same ratio 2^(1/12) between neighbours, strictly increasing. pitch_to_freq(name, octave) is the frequency nine semitones above that pitch (so pitch_to_freq('A', 4) is not 440, pitch_to_freq('C', 4) is), KeyError for a name outside the twelve sharps. is_four_eighth_note is false for every pitch whenever a quarter note lasts at least 0.17 s. is_four_eighth_note is true exactly when the period of the pitch is within 10% of the length of a quarter note.", "quantifier": "all notes, octaves, names, tempi", "why_tests_cant": "all integers and reals", "anchors": ["neural_graph_composer/midi/midi_note.py: note_to_freq, pitch_to_freq, is_four_eighth_note", "neural_graph_composer/midi/midi_spec.py: PITCH_FREQUENCIES"]}
{"id": "C129", "title": "Onsets and tempo estimates", "statement": "get_onsets returns every note start of every instrument in ascending order. estimate_tempi returns as many probabilities as tempi; every tempo is in (30, 300], every probability positive, probabilities descend and sum to 1, and there is none exactly when no gap between successive onsets lies strictly between 0.05 s and 2 s. The probability-weighted beat length is the mean of the usable gaps, each doubled until it reaches 0.2 s. If all gaps are equal the only estimate is that tempo, with probability 1. (A gap near some cluster is added to the cluster with the smallest mean, so the best estimate may be a tempo that no gap has.)", "quantifier": "all onset lists and any order numpy's argsort may give to ties", "why_tests_cant": "all onset lists; unstable sort", "anchors": ["neural_graph_composer/custom_pretty_midi.py: get_onsets, estimate_tempi"]}
{"id": "C130", "title": "The global tempo estimate", "statement": "estimate_tempo raises ValueError exactly when no gap between successive onsets is usable (not just when there are fewer than two notes), no other error, and otherwise returns the first tempo of estimate_tempi, in (30, 300], whose probability is maximal.", "quantifier": "all onset lists", "why_tests_cant": "all onset lists", "anchors": ["neural_graph_composer/custom_pretty_midi.py: estimate_tempo"]}
{"id": "C131", "title": "The estimated first beat is the best candidate onset", "statement": "estimate_beat_start raises ValueError without notes; otherwise it terminates and returns one of the first candidates+1 note onsets (those more than a millisecond after the preceding onset), namely the earliest one that maximises the velocity of notes within tolerance of time 0 or of the beats from that onset, divided by the number of those beats.", "quantifier": "all note lists, tempo maps, signatures, candidate counts and tolerances in (0, 1]", "why_tests_cant": "all note lists and tempo maps; termination", "anchors": ["neural_graph_composer/custom_pretty_midi.py: estimate_beat_start, get_beats"]}
{"id": "C132", "title": "adjust_times rejects unusable times before touching the piece", "statement": "With no original times, or with fewer new times than the positions that count (the first position of every distinct original time), adjust_times raises (IndexError; ValueError when there are no times and no notes) and the piece is unchanged.", "quantifier": "every list of original and new times, every piece", "why_tests_cant": "quantifies over all pairs of lists with repeats and all pieces", "anchors": ["neural_graph_composer/custom_pretty_midi.py:1054-1090 adjust_times"]}
{"id": "C133", "title": "adjust_times moves notes along one monotone piecewise linear map", "statement": "adjust_times uses one time map: the distinct original times ascending, each sent to the largest new time given for an original not after it; linear between neighbours, constant outside. It never swaps two times. The notes kept are exactly those inside the original range whose image (cut at 0) has positive length, in their order, with pitch and velocity unchanged and 0 <= start < end.", "quantifier": "every original and new times, every instrument and note list", "why_tests_cant": "all breakpoint lists, including unsorted and repeated ones, and all note lists", "anchors": ["neural_graph_composer/custom_pretty_midi.py:1069-1106 adjust_times"]}
{"id": "C134", "title": "adjust_times moves events and keeps one per list at the new start", "statement": "Pitch bends, control changes, key signatures and lyrics end up in time order at the images of their times; all that land strictly inside the new range are kept, of those landing on its start only the latest (the last one listed among equals), all others are removed.", "quantifier": "every breakpoint lists, every event list", "why_tests_cant": "all event lists with any number of ties and any map with flat parts", "anchors": ["neural_graph_composer/custom_pretty_midi.py:1108-1167 adjust_events, adjust_meta"]}
{"id": "C135", "title": "adjust_times anchors the time signatures at the first downbeat", "statement": "When a downbeat at or after the first original time exists, the resulting time signatures start exactly at the image of the first such downbeat, with the meter that was in force there (4/4 if none was), followed by exactly the moved signatures that come later. Without such a downbeat they are just moved like other events.", "quantifier": "every signature list, downbeats and time map", "why_tests_cant": "all combinations of signature lists, downbeats and maps", "anchors": ["neural_graph_composer/custom_pretty_midi.py:1169-1195 adjust_times"]}
{"id": "C136", "title": "adjust_times conserves musical time", "statement": "After a successful adjust_times the new tempo list plays, between the images of two times, exactly the quarter notes the old one played between the times themselves (breakpoints on the tick grid and without those that make no progress). The tick scales are this tempo list, with 120 bpm before its first entry and repeats left out, each on a tick at most half a tick from its exact position.", "quantifier": "every tempo map, every non-negative time map, every pair of times in range", "why_tests_cant": "an integral identity over all pairs of times and all tempo maps", "anchors": ["neural_graph_composer/custom_pretty_midi.py:1197-1269 adjust_times"]}
{"id": "C137", "title": "adjust_times fails half way when the times make no progress", "statement": "With usable times adjust_times raises IndexError exactly when fewer than two breakpoints differ from their predecessor in both times (a single breakpoint, for instance); by then notes and events have been moved, only the tick scales are still the old ones.", "quantifier": "every breakpoint lists and piece", "why_tests_cant": "an exact characterisation over all lists", "anchors": ["neural_graph_composer/custom_pretty_midi.py:1208-1247 adjust_times"]}
{"id": "C138", "title": "Order of timed events", "statement": "Control changes, key, tempo and time signatures compare by time, or by sequence number when their times agree up to a billionth (relative). On control changes made and mutated through the interface < is irreflexive, asymmetric and transitive; but 'neither is less' is not transitive, so sorting very close events need not order their times.", "quantifier": "every pair/triple of events, every history of setter calls", "why_tests_cant": "order laws range over all triples of times; the failure needs times chosen within the tolerance", "anchors": ["neural_graph_composer/midi/midi_control_change.py:217-225 __lt__", "neural_graph_composer/midi/midi_key_signature.py:72-81 __lt__", "neural_graph_composer/midi/midi_time_signature.py:152-156, 277-286 __lt__"]}
{"id": "C139", "title": "Control changes: shifting and (in)equality", "statement": "shift_time moves the time of a control change and nothing else; shifting by d and by -d gives an equal event. For the base class == compares number and description while != compares the number only, so two objects with the same number and different descriptions are neither equal nor unequal; no pair is both. The base class orders by number, and its description is the one given except that \"Undefined\" gets the number appended. Control changes are equal exactly when number, value, time, program, instrument, drum flag and the quantization steps are, and != is the negation.", "quantifier": "every control change, every shift, every pair of base objects", "why_tests_cant": "quantifies over all field values", "anchors": ["neural_graph_composer/midi/midi_control_change.py:24-64, 400-405"]}
{"id": "C140", "title": "Pitch bends: equality and sorting", "statement": "Two pitch bends are equal exactly when amount, program, instrument, drum flag and time agree. Sorting a list of pitch bends orders them by amount, whatever their times, and keeps the order among equal amounts.", "quantifier": "every pair and every list of pitch bends", "why_tests_cant": "lists of any length", "anchors": ["neural_graph_composer/midi/midi_pitch_bend.py:75-98 __lt__, __eq__"]}
{"id": "C141", "title": "Key signatures accept two modes", "statement": "MidiKeySignature accepts mode 0 (major) and 1 (minor) and raises ValueError on every other mode; time and key are stored as given, whatever their values.", "quantifier": "every time, key and mode", "why_tests_cant": "all integers as modes and keys", "anchors": ["neural_graph_composer/midi/midi_key_signature.py:24-70"]}
{"id": "C142", "title": "ppq_to_qpm ignores the tempo", "statement": "For non-zero arguments ppq_to_qpm returns 60 / ppq: the tempo and the ticks per beat cancel out.", "quantifier": "every non-zero ppq, tempo and ticks per beat", "why_tests_cant": "an algebraic identity over all arguments", "anchors": ["neural_graph_composer/midi/midi_time_signature.py:99-112 ppq_to_qpm"]}
{"id": "C143", "title": "Piano roll of a piece", "statement": "get_piano_roll has 128 rows and as many columns as the longest instrument's roll; every entry is the sum of the instruments' entries, an instrument contributing 0 after its end; the order of the instruments does not matter; with no instrument there are no columns.", "quantifier": "every list of instrument piano rolls of any lengths", "why_tests_cant": "any number of instruments and columns", "anchors": ["neural_graph_composer/custom_pretty_midi.py:815-851 get_piano_roll"]}
{"id": "C144", "title": "Pitch class histogram sums and normalises", "statement": "get_pitch_class_histogram is the entrywise sum of the instruments' histograms; normalised it sums to 1 and keeps all proportions, and a histogram that sums to 0 (no notes) is left alone instead of being divided by 0.", "quantifier": "every list of instrument histograms", "why_tests_cant": "any number of instruments and values", "anchors": ["neural_graph_composer/custom_pretty_midi.py:853-879 get_pitch_class_histogram"]}
{"id": "C145", "title": "Pitch class transition matrix sums and normalises", "statement": "get_pitch_class_transition_matrix is the entrywise sum of the instruments' matrices; normalised it sums to 1 and keeps proportions unless the sum is 0. As instruments are normalised individually first, the normalised result is the mean of the instruments' matrices, however many transitions each has.", "quantifier": "every list of 12 x 12 instrument matrices", "why_tests_cant": "any number of instruments and values", "anchors": ["neural_graph_composer/custom_pretty_midi.py:881-907 get_pitch_class_transition_matrix"]}
{"id": "C146", "title": "Chroma folds the piano roll without loss", "statement": "get_chroma has 12 rows and the columns of the piano roll; row k is the sum of the rows of the pitches congruent to k modulo 12, so every column keeps its sum.", "quantifier": "every list of instrument piano rolls, every column", "why_tests_cant": "any number of instruments and columns", "anchors": ["neural_graph_composer/custom_pretty_midi.py:909-937 get_chroma"]}
{"id": "C147", "title": "Loading signatures and lyrics", "statement": "Loading a file whose tracks are non-empty and end before tick 10^9 gives one entry for every key signature, time signature and lyric of the first track, in file order, at the time its tick has under the tempo events of the first track, so each list is ordered by time; signature and lyric events of other tracks are ignored.", "quantifier": "every file: resolution, number of tracks, events, delta times and tempi", "why_tests_cant": "files of any length with any tempo changes", "anchors": ["neural_graph_composer/custom_pretty_midi.py:90-115 from_file", "neural_graph_composer/custom_pretty_midi.py:201-234 _load_metadata"]}
{"id": "C148", "title": "Which files are rejected", "statement": "A file without tracks raises IndexError; one with an empty track, with a last tick of 10^9 or more, or with an unacceptable key or time signature in the first track raises ValueError; every other well-formed file loads its metadata.", "quantifier": "every file with non-negative delta times and positive tempi", "why_tests_cant": "an exact characterisation over all files", "anchors": ["neural_graph_composer/custom_pretty_midi.py:90-115 from_file", "neural_graph_composer/custom_pretty_midi.py:201-234 _load_metadata"]}
{"id": "C149", "title": "Name of a loaded instrument", "statement": "The instrument created for a program and channel of a track is named by the last track_name event that precedes, in that track, the event that ended its first note; it has the empty name if there is none. Later names and names of other tracks never change it.", "quantifier": "all files, tracks, channels and programs", "why_tests_cant": "unbounded event lists and positions of the name among the notes", "anchors": ["neural_graph_composer/custom_pretty_midi.py: _load_instruments"]}
{"id": "C150", "title": "Signatures of a file that is read", "statement": "Reading a file checks its key signatures, then tempos, then time signatures: the first kind with a bad entry decides the exception (ValueError for a key number outside 0..23, AssertionError for a non-positive tempo or resolution, MidiReaderError for a time signature whose numerator is not positive or whose denominator is not a power of two). When reading succeeds, each of the three signature lists of the result holds exactly the entries of the file, sorted by time, after one entry at time zero (the file's last one there, else C major, 120 qpm and 4/4); key number k is tonic k mod 12, minor from 12 on.", "quantifier": "all loaded files", "why_tests_cant": "unbounded lists of signatures in any order", "anchors": ["neural_graph_composer/midi_reader.py:read_key_signature", "neural_graph_composer/midi_reader.py:read_tempo_changes", "neural_graph_composer/midi_reader.py:read_time_signature"]}
{"id": "C151", "title": "Score of an interval tree", "statement": "score() is 0 for at most two members; otherwise it is the larger of the share of intervals sitting deeper than a perfectly balanced tree of as many nodes needs (weighted by how much deeper, over 1 + members - levels) and (members - nodes)/(members - 1). After insertions only, or construction, it never raises and is never negative, and after insertions it is 0 exactly when no interval lies deeper than needed. The documented range [0, 1] is not kept once intervals were removed: nodes outlive their intervals, so with n members left of m insertions score() raises ZeroDivisionError when n = floor(log2 m) and is at most 0 when fewer remain.", "quantifier": "every history of constructor calls, methods and operators on interval trees, every set of ordinary intervals", "why_tests_cant": "depends on the whole history of insertions, rotations and removals", "anchors": ["neural_graph_composer/interval/intervaltree.py:FloatIntervalTree.score", "neural_graph_composer/interval/node.py:Node.depth_score", "neural_graph_composer/interval/node.py:Node.depth_score_helper", "neural_graph_composer/interval/node.py:Node.count_nodes"]}
{"id": "C152", "title": "Accessors and named set methods of an interval tree", "statement": "items() lists exactly the members; is_empty() is true exactly without members; printing shows the members in ascending (begin, end, data) order, each once; tree[b:e] = data adds exactly that interval, or raises ValueError and changes nothing when e <= b. overlaps() answers False whatever it is asked. difference, union, intersection, symmetric_difference, from_tuples, range, containsi, removei, discardi, find_nested and == raise NameError and leave the tree unchanged.", "quantifier": "every history of calls, every argument", "why_tests_cant": "must hold for every reachable tree and argument", "anchors": ["neural_graph_composer/interval/intervaltree.py:FloatIntervalTree.items", "neural_graph_composer/interval/intervaltree.py:FloatIntervalTree.is_empty", "neural_graph_composer/interval/intervaltree.py:FloatIntervalTree.__setitem__", "neural_graph_composer/interval/intervaltree.py:FloatIntervalTree.overlaps", "neural_graph_composer/interval/intervaltree.py:FloatIntervalTree.union", "neural_graph_composer/interval/intervaltree.py:FloatIntervalTree.__eq__"]}
{"id": "C153", "title": "Cached questions to a sequence", "statement": "MidiNoteSequence.truncate_to_last_event truncates nothing: it never changes the sequence. The first call with a given offset answers the end of the last note (0 without notes) plus the offset; every later call with an equal offset repeats that answer, whatever was added, removed or shifted in between. initial_tempo() is 480 without tempo signatures, 0 (the time, not the tempo) with a signature at time 0, None otherwise, and keeps its first answer for ever. truncate_to_last_event(None) answers None.", "quantifier": "every sequence, every history of modifying calls and questions, every offset", "why_tests_cant": "the answer depends on the whole earlier history of calls", "anchors": ["neural_graph_composer/midi/midi_sequence.py:MidiNoteSequence.truncate_to_last_event", "neural_graph_composer/midi/midi_sequence.py:MidiNoteSequence.initial_tempo"]}
{"id": "C154", "title": "Sorting sequences and instruments", "statement": "sorted() on sequences returns the same objects ordered by instrument number and, within one number, by object address rather than by position in the input. sorted() on instruments orders by number; != on instruments is exactly the negation of equality of number, name and drum flag.", "quantifier": "every list of distinct sequence objects and every assignment of addresses, every list of instruments", "why_tests_cant": "addresses are chosen by the interpreter; must hold for all lists", "anchors": ["neural_graph_composer/midi/midi_sequence.py:MidiNoteSequence.__lt__", "neural_graph_composer/midi/midi_instruments.py:MidiInstrumentInfo.__lt__", "neural_graph_composer/midi/midi_instruments.py:MidiInstrumentInfo.__ne__"]}
{"id": "C155", "title": "Counts of a multi-track object", "statement": "After any history, num_track() is the number of stored tracks, instruments lists the instruments of the tracks in ascending key order, num_instruments() is the number of different instrument numbers among them (so at most num_track()), and instrument_midi_seq_len(k) is the number of notes of track k, 0 if there is none. Built from a list of mergeable sequences there is exactly one track per instrument number, and its length is the sum of the lengths of the sequences with that number.", "quantifier": "every history of calls, every list of sequences, every key", "why_tests_cant": "ranges over all histories and lists", "anchors": ["neural_graph_composer/midi/midi_sequences.py:MidiNoteSequences.num_track", "neural_graph_composer/midi/midi_sequences.py:MidiNoteSequences.num_instruments", "neural_graph_composer/midi/midi_sequences.py:MidiNoteSequences.instrument_midi_seq_len", "neural_graph_composer/midi/midi_sequences.py:MidiNoteSequences.instruments"]}
{"id": "C156", "title": "Changing the resolution moves no note", "statement": "Assigning resolution on a sequence sets that number and changes nothing else: no note, total time, control change or pitch bend is rescaled, whatever the old resolution was.", "quantifier": "every sequence, every old and new resolution", "why_tests_cant": "must hold for every sequence and value", "anchors": ["neural_graph_composer/midi/midi_sequence.py:MidiNoteSequence.resolution"]}
{"id": "C157", "title": "Relative velocity scaling", "statement": "scale_relative_velocities returns as many velocities as it is given, all in 0..127; for a nonnegative factor and nonnegative velocities they are ordered like the input under every monotone rounding of the arithmetic; in exact arithmetic each is the velocity times the factor, cut at 127 and rounded down, and there is no answer (a NaN is converted) exactly when all velocities are 0. same_start_time compares a note with itself and is True for every positive tolerance.", "quantifier": "every list of velocities, every factor, every monotone rounding", "why_tests_cant": "ranges over all lists, factors and roundings", "anchors": ["neural_graph_composer/midi_graph_builder.py:MidiGraphBuilder.scale_relative_velocities", "neural_graph_composer/midi_graph_builder.py:MidiGraphBuilder.same_start_time"]}
{"id": "C158", "title": "Tempo lost by saving, in double precision", "statement": "In double precision, saving a file and loading it again leaves the tempo (microseconds per quarter note) at every tick as it was or one lower, and n rounds lower it by at most n, for all tempi above n and up to 2^48 and every resolution. The loss does happen and does add up: 461538 at 480 ticks a quarter becomes 461537, and 400147 loses 4 in four rounds.", "quantifier": "every number of rounds, resolution, tempo event list and tick", "why_tests_cant": "ranges over all tempo maps, resolutions and numbers of rounds, and rounding errors depend on every bit", "anchors": ["neural_graph_composer/custom_pretty_midi.py: _load_tempo_changes, serialize"]}
{"id": "C159", "title": "Accuracy of tick_to_time in double precision", "statement": "In double precision tick_to_time(k) of a loaded file does not depend on the queries made before, is 0 at tick 0, never decreases with k, raises IndexError exactly from 10^9 on, and differs from the exact sum of the tick durations by at most that sum times (number of tempo events + 5) / 2^51. Loading a file whose last event is at tick 10^9 or later raises ValueError. A negative tick counts back from the end of the table (last tick + 2 entries, or one more than the largest tick converted so far) and raises IndexError beyond it, changing nothing.", "quantifier": "every resolution, tempo event list, query history and tick", "why_tests_cant": "error bounds must hold for every tempo map, tick and history", "anchors": ["neural_graph_composer/custom_pretty_midi.py: _load_tempo_changes, _update_tick_to_time, tick_to_time, time_to_tick"]}
{"id": "C160", "title": "Ticks survive the conversion to seconds, in double precision", "statement": "For tempi between 256 and 2^24-1 microseconds per quarter note, in double precision different ticks have different times, and time_to_tick(tick_to_time(k)) = k for every tick below 10^9, whatever queries are made before and in between.", "quantifier": "every resolution, tempo event list, pair of query histories and tick", "why_tests_cant": "rounding could merge or shift ticks for any of 10^9 ticks under unboundedly many tempo maps", "anchors": ["neural_graph_composer/custom_pretty_midi.py: _load_tempo_changes, _update_tick_to_time, tick_to_time, time_to_tick"]}
{"id": "C161", "title": "time_to_tick in double precision", "statement": "In double precision, after any queries, time_to_tick answers every time with a tick >= 0; a later time never gets an earlier tick; and for times up to the last tick of the file the distance to the time of the answered tick is at most (1 + 2^-51) times the distance to the time of any other tick.", "quantifier": "every resolution, tempo event list, query history, time and pair of times", "why_tests_cant": "ranges over all times and tempo maps; ties are decided by rounding", "anchors": ["neural_graph_composer/custom_pretty_midi.py: _load_tempo_changes, _update_tick_to_time, tick_to_time, time_to_tick"]}
{"id": "C162", "title": "A whole piece survives saving and loading", "statement": "For a piece whose clock came from a file (whatever was asked of it since), with key numbers 0..23, positive numerators and instruments whose notes last, differ in pitch when struck together and do not sound on when a later one is struck: if it can be saved and the file is shorter than 10^9 ticks, then loading the file gives the piece back: signatures and lyrics (with a 4/4 signature at the start when no signature is at or before time 0), every instrument that has notes, in order, with name, program, drum flag, notes, bends and control changes; every time moves to a nearest tick and does not move if it was the time of a tick; every tick keeps its time. A piece can be saved exactly when every value fits its message: tempi 24 bits, denominators powers of two, keys in the table, 7-bit values, 14-bit bends, drum channel 0..15. The key names written are right: number k < 12 is written as the major key on pitch class k and number 12 + k as the minor key.", "quantifier": "all tempo maps, query histories, pieces with the stated conditions, drum channels", "why_tests_cant": "unbounded pieces and tempo maps; composition of two long stateful conversions", "anchors": ["neural_graph_composer/custom_pretty_midi.py: serialize, write, from_file, _load_tempo_changes, _load_metadata, _load_instruments, tick_to_time, time_to_tick"]}
{"id": "C163", "title": "A piece made from scratch comes back early by at most a microsecond per beat", "statement": "A piece on an object constructed with a tempo bpm (0 < bpm <= 60000000) is saved with the tempo of floor(60000000/bpm) microseconds: loading gives the same piece with every event at the time of its nearest tick under that tempo, which is not later than the tick's time before saving and at most one microsecond per quarter note earlier.", "quantifier": "all resolutions, tempi, query histories and pieces with the conditions of C162", "why_tests_cant": "truncation of the tempo accumulates over pieces of any length", "anchors": ["neural_graph_composer/custom_pretty_midi.py: serialize, write, from_file, _load_tempo_changes, _load_metadata, _load_instruments, tick_to_time, time_to_tick"]}
{"id": "C164", "title": "Load, save, load is stable", "statement": "A piece loaded from a file in which no track strikes a key twice at one tick or at the tick of its end, saved and loaded again, is the same piece: the same signatures, lyrics, instruments with notes and events, each at exactly the same time, and every tick has the same time (in exact arithmetic).", "quantifier": "all files as mido reads them with the stated condition, all resolutions and query histories", "why_tests_cant": "unbounded files; the loader's closing of notes has to agree with the writer's ordering", "anchors": ["neural_graph_composer/custom_pretty_midi.py: serialize, write, from_file, _load_tempo_changes, _load_metadata, _load_instruments, tick_to_time, time_to_tick"]}
{"id": "C165", "title": "Loading changes the MidiFile object", "statement": "from_file replaces the relative times of the messages of the mido.MidiFile object it is given by absolute ones and leaves them so: the object is unchanged exactly if all messages of each track except its last have time 0; otherwise loading the same object again reads other times.", "quantifier": "all MidiFile objects", "why_tests_cant": "ranges over all files", "anchors": ["neural_graph_composer/custom_pretty_midi.py: from_file"]}
{"id": "C166", "title": "Saving into an existing MidiFile object", "statement": "serialize with a mido_file that has tracks keeps their number and order and appends the tracks of the piece, but takes the existing times for absolute ones and makes them relative: the old tracks stay as they were exactly if all their messages except the last have time 0. Into an object from which a piece has just been loaded it restores the relative times and appends.", "quantifier": "all pieces that can be saved and all MidiFile objects", "why_tests_cant": "ranges over all files", "anchors": ["neural_graph_composer/custom_pretty_midi.py: serialize, write"]}
{"id": "C167", "title": "Reading a MIDI file yields exactly the notes it denotes", "statement": "MidiReader.read of a MIDI file with in-range values, proper signatures and tempi, fewer than 10^9 ticks, no key struck twice at one tick and at most 128 playing instruments always succeeds. The result has one track for every combination of file track, channel and program that plays at least one note, ordered by file track, and no other; the track is a drum track iff its channel is the drum channel; it holds, in the order of their ends, exactly the notes the events denote for that combination, with their pitch, velocity and the start and end seconds of the tempo map, except notes that last no more than a billionth of their end time.", "quantifier": "all MIDI files (any tracks, events and tempo changes) of at most 128 playing instruments", "why_tests_cant": "files, interleavings of tracks and channels, and tempo maps are unbounded; tests read a few files", "anchors": ["neural_graph_composer/midi_reader.py: MidiReader.read", "neural_graph_composer/custom_pretty_midi.py: CustomPrettyMIDI.from_file"]}
{"id": "C168", "title": "Which notes of a file are lost in reading", "statement": "If the tempo of the file always lies between lo and hi microseconds per quarter, a note of d ticks ending at tick e is kept by MidiReader.read whenever e*hi < 10^9*d*lo; a note of no ticks is always lost. With a single tempo exactly the notes of no ticks are lost.", "quantifier": "all MIDI files, all tempo bounds, all notes of the file", "why_tests_cant": "the dropping is decided by a relative comparison of accumulated times, so it depends on every tempo event and on the position in the file", "anchors": ["neural_graph_composer/midi_reader.py: read_instrument", "neural_graph_composer/custom_pretty_midi.py: tick_to_time table"]}
{"id": "C169", "title": "Every file that can be read can be turned into graphs of its pitches", "statement": "For every MIDI file as in C167 and every valid configuration (with one-hot features: if key 127 is never struck), building a graph from any track read succeeds, as does building from the whole object, per instrument or not. The graph of a track is the graph of the walk through its chords; unless single notes are filtered the pitches in these chords are exactly those of the notes of the file kept for the track; drum tracks give no chord.", "quantifier": "all MIDI files, all valid configurations, all hash functions and set orders, all tracks", "why_tests_cant": "ranges over all files and configurations, and over CPython's set iteration order and hashes", "anchors": ["neural_graph_composer/midi_reader.py: MidiReader.read", "neural_graph_composer/midi_graph_builder.py: MidiGraphBuilder.build_sequence, build"]}
{"id": "C170", "title": "Tempo changes are misplaced when an object is converted back", "statement": "When to_pretty_midi writes the tempo signatures of an object (positive tempos and resolution), each one up to the end of the last note gets an entry with the right scale, at tick 0 if its time is not positive, and otherwise on the tick nearest to the place its time would have if the tempo written just before it had been in force since time 0. So with one later change all is well, but with tempos q0 at 0, q1 at t1 and q2 at t2 the last one lands r*t1*(q1-q0)/60 ticks from its place (within half a tick).", "quantifier": "all multi-track objects with positive tempos and resolution, all ends", "why_tests_cant": "ranges over all lists of tempo changes; a test with a single change passes", "anchors": ["neural_graph_composer/midi_reader.py: MidiReader.to_pretty_midi", "neural_graph_composer/custom_pretty_midi.py: CustomPrettyMIDI.time_to_tick, update_scale, update_tick_time"]}
{"id": "C171", "title": "Only pieces with a rhythm can be converted back", "statement": "to_pretty_midi delivers a piece only if some note of the result starts more than 50 ms and less than 2 s after another one with none starting in between. For every other object (one note, one chord, notes 2 s or more apart) it raises, because a log message asks for the estimated tempo.", "quantifier": "all multi-track objects, all from_start and to_end", "why_tests_cant": "ranges over all note sets", "anchors": ["neural_graph_composer/midi_reader.py: MidiReader.to_pretty_midi", "neural_graph_composer/custom_pretty_midi.py: CustomPrettyMIDI.estimate_tempo, estimate_tempi, get_onsets"]}
{"id": "C172", "title": "from_start and to_end stretch a piece instead of cutting it", "statement": "When to_pretty_midi(so, from_start, to_end) delivers a piece, then with E the end of the piece, lo = max(0, from_start) and hi = min(to_end, E): lo < hi, and every note with a positive length of every instrument is kept, in order, with its pitch and velocity, its times t mapped to lo + (hi - lo)/E * t; pitch bends and control changes move along the same line, of those at time 0 only the last one is kept. For an object read from a file the instruments are an empty one and one per instrument of the file, with program 0, the drum flag, the notes that survived reading, and no pitch bends or control changes; E is the end of the last audible note if no tempo changes after time 0.", "quantifier": "all multi-track objects whose notes do not start before 0, all files as a MIDI library produces them, all from_start and to_end", "why_tests_cant": "ranges over all objects and ranges", "anchors": ["neural_graph_composer/midi_reader.py: MidiReader.to_pretty_midi", "neural_graph_composer/custom_pretty_midi.py: CustomPrettyMIDI.adjust_times, get_end_time"]}
{"id": "C173", "title": "Converting an object at one tempo changes the tempo unless it ends on a tick", "statement": "For an object read from a file with one tempo q from time 0, to_pretty_midi(so, from_start None or not positive, to_end b) that delivers a piece delivers one with exactly one tempo, from time 0: q * (time of the tick nearest to E) / min(b, E), where E is the end of the last note (total_time) and ticks last 60 / (q * resolution). So the tempo of the piece is q only if E lies on a tick and nothing is squeezed.", "quantifier": "all files as a MIDI library produces them with one tempo and a note, all to_end", "why_tests_cant": "ranges over all objects, tempi and resolutions", "anchors": ["neural_graph_composer/midi_reader.py: MidiReader.to_pretty_midi", "neural_graph_composer/custom_pretty_midi.py: CustomPrettyMIDI.adjust_times, _update_tick_to_time, time_to_tick"]}
{"id": "C174", "title": "Reading, writing and reading a file with one tempo keeps the notes", "statement": "A MIDI file with one tempo, read into a multi-track object with at least one note, written by MidiReader.write with from_start None or 0 and to_end no earlier than total_time, and read again gives an object whose tracks are, in order, the tracks with notes of the first object, with the same drum flag, program 0 and the same notes (pitch, velocity, start, end), and the same single tempo. Tracks without notes and all programs are lost.", "quantifier": "all MIDI files with one tempo and at most 128 instruments, all resolutions, all to_end", "why_tests_cant": "ranges over all files", "anchors": ["neural_graph_composer/midi_reader.py: MidiReader.read, MidiReader.to_pretty_midi, MidiReader.write", "neural_graph_composer/custom_pretty_midi.py: CustomPrettyMIDI.write, adjust_times, __load_instruments"]}
{"id": "C175", "title": "The graph traversal visits exactly the reachable nodes", "statement": "dijkstra_traversal2 ends for every graph, every weighting (negative, too) and every start node, after at most one pop more than there are edges. Its node sequence holds every node reachable from the start along edges exactly once and no other node; its edge sequence holds the edges leaving those nodes, node by node, in the order of edge_index (parallel edges as often as they occur).", "quantifier": "all edge lists, all weight lists at least as long, all start nodes", "why_tests_cant": "ranges over all graphs, and termination", "anchors": ["example03_lstm.py: dijkstra_traversal2"]}
{"id": "C176", "title": "With weights not negative the traversal goes by distance", "statement": "If no weight is negative, the node sequence of dijkstra_traversal2 is in ascending order of the distance from the start node, where the distance is the least total weight of a walk and, of several parallel edges, only the first one listed in edge_index counts (a lighter later one is ignored). With a negative weight the order can differ. If all weights are positive, nodes at the same distance come in the order of their numbers.", "quantifier": "all graphs with weights not negative, all start nodes", "why_tests_cant": "ranges over all graphs and all walks", "anchors": ["example03_lstm.py: dijkstra_traversal2"]}
{"id": "C177", "title": "Five of the six trainers cannot be constructed as documented", "statement": "ExampleNodeClassification, Example02, Example01 (GIN), GraphGenerationModel and VariationGae pass epochs, batch_size and midi_dataset to Experiments.__init__ in the wrong order: with an integer (or None) for epochs the constructor raises ValueError, whatever the batch size and dataset. ExampleNodeClassification, GraphGenerationModel and VariationGae fail for all arguments; the other two succeed only when the dataset is passed as epochs and positive integers as the other two. NgcTrainer succeeds exactly for a dataset and positive integers.", "quantifier": "all arguments (None, integers, datasets, other containers, other objects)", "why_tests_cant": "ranges over all arguments", "anchors": ["ngc_shared.py: Experiments.__init__", "example01_node_classification.py: ExampleNodeClassification.__init__", "example02.py: Example02.__init__", "example03_lstm.py: GraphGenerationModel.__init__", "example04_gae.py: VariationGae.__init__", "ngc_example05_gin.py: Example01.__init__", "minimum_example_node_classification.py: NgcTrainer.__init__"]}
{"id": "C178", "title": "The four scores of a test batch are one number", "statement": "NgcTrainer.test raises ZeroDivisionError exactly if some train, validation or test mask of some split selects no node. Otherwise it returns, for accuracy, F1, precision and recall, three numbers each (training, validation, test nodes): the share of nodes predicted right, averaged over the splits; since the averages are micro averages, all four scores are equal. Without a split the four lists are empty.", "quantifier": "all batches, labels, predictions and masks", "why_tests_cant": "ranges over all batches and predictions", "anchors": ["minimum_example_node_classification.py: NgcTrainer.test"]}
{"id": "C179", "title": "What training reports", "statement": "NgcTrainer.trainer returns (final_test_acc, best_val_acc, best_test_f1, best_val_f1). If no mask is empty, final_test_acc is the greatest mean validation accuracy over the epochs and best_val_acc the greatest mean test accuracy (the names are exchanged); best_test_f1 equals final_test_acc and best_val_f1 equals best_val_acc. They are 0 without epochs or test batches. If some test batch has an empty mask or no split, training raises.", "quantifier": "all numbers of epochs, all test batches and whatever the network predicts in each epoch", "why_tests_cant": "ranges over all runs of training", "anchors": ["minimum_example_node_classification.py: NgcTrainer.trainer, NgcTrainer.test"]}
{"id": "C180", "title": "Relative velocity scaling in double precision", "statement": "In double precision, scale_relative_velocities with a factor that is not negative, applied to velocities that are not negative and not all 0, gives velocities that differ from the exact result (velocity times factor, cut at 127, rounded down) by at most one. With factor 1 each velocity is kept or lowered by one, and this happens: 87, 65 become 86, 65.", "quantifier": "all lists of velocities and factors", "why_tests_cant": "ranges over all lists and factors", "anchors": ["neural_graph_composer/midi_graph_builder.py: MidiGraphBuilder.scale_relative_velocities"]}
{"id": "C181", "title": "Link prediction is symmetric and a probability", "statement": "VariationGae.predict_link answers exactly for existing nodes (negative numbers count from the end), IndexError otherwise; the answer does not depend on the order of the two nodes, lies strictly between 0 and 1 in exact arithmetic, exceeds 1/2 exactly if the inner product of the two embeddings is positive, grows with the inner product, and is at least 1/2 for a node and itself.", "quantifier": "all embeddings and all pairs of nodes", "why_tests_cant": "ranges over all embeddings", "anchors": ["example04_gae.py: VariationGae.predict_link"]}
{"id": "C182", "title": "Nodes that look alike get the same scores", "statement": "NeuralGraphComposer in evaluation mode gives one row of scores for each node if all edges join existing nodes, and raises otherwise; two nodes of one graph or of two graphs that have the same features, and whose predecessors can be paired so that they look alike up to one step less, down to the number of convolutions, get the same scores, whatever the weights.", "quantifier": "all networks, graphs and nodes", "why_tests_cant": "ranges over all weights and graphs", "anchors": ["minimum_example_node_classification.py: NeuralGraphComposer.forward, NgcGCN2Conv.forward"]}
{"id": "C183", "title": "Edge order, node numbering and batching do not change the scores", "statement": "The scores of NeuralGraphComposer in evaluation mode do not depend on the order in which edges are listed; renumbering the nodes renumbers the scores in the same way; and putting two graphs in one batch gives each node the scores it has in its graph alone.", "quantifier": "all networks, graphs, edge orders, renumberings and pairs of graphs", "why_tests_cant": "ranges over all weights and graphs", "anchors": ["minimum_example_node_classification.py: NeuralGraphComposer.forward, NgcGCN2Conv.forward"]}
{"id": "C184", "title": "How far a node sees", "statement": "The scores of a node depend only on the features of those nodes from which it can be reached along at most as many edges as the network has convolutions.", "quantifier": "all networks, graphs, nodes and changes of features", "why_tests_cant": "ranges over all weights and graphs", "anchors": ["minimum_example_node_classification.py: NeuralGraphComposer.forward, NgcGCN2Conv.forward"]}
{"id": "C185", "title": "Convolution and network compute their formula", "statement": "Entry by entry, NgcGCN2Conv.forward without normalisation is ((1-alpha) P X + alpha X0)((1-beta) I + beta W1) with shared weights and (1-alpha) P X ((1-beta) I + beta W1) + alpha X0 ((1-beta) I + beta W2) without, where P sums over incoming edges; and NeuralGraphComposer in evaluation mode is a linear layer cut at 0, then for each convolution its value plus its input, cut at 0, then a linear layer.", "quantifier": "all weights of fitting shape, all graphs, all entries, exact arithmetic", "why_tests_cant": "ranges over all weights and graphs", "anchors": ["minimum_example_node_classification.py: NeuralGraphComposer.forward, NgcGCN2Conv.forward"]}
{"id": "C186", "title": "Listed MIDI files are copied by name", "statement": "Creating a dataset from a list of existing files copies each into the raw directory under its base name and overwrites the caller's list with these names; of several files with the same base name the last wins and all their entries read it; nothing else in the file system changes; and if all raw files already exist nothing is copied, however stale they are.", "quantifier": "all file systems, working directories, raw directories and lists of files", "why_tests_cant": "ranges over all file systems and lists, including clashing names", "anchors": ["neural_graph_composer/midi_dataset.py: download, raw_file_names"]}
{"id": "C187", "title": "A missing listed file cannot be retried with the same list", "statement": "A listed file that does not exist stops the copying with RuntimeError after the files before it were copied and their entries in the caller's list were replaced by bare names; a second attempt with the same list fails again at its first entry unless a file of that bare name happens to be in the working directory.", "quantifier": "all file systems before and at the second attempt, all lists with a missing file after at least one present file", "why_tests_cant": "ranges over all file systems and histories", "anchors": ["neural_graph_composer/midi_dataset.py: download"]}
{"id": "C188", "title": "Graph builder constructors", "statement": "MidiGraphBuilder(...) accepts exactly a sequence, a multi-track object or None, a non-negative numeric tolerance and a feature size None or 1..127; its options have no effect on what build produces; from_midi_sequence refuses an empty sequence, passes its velocity flag as the per-instrument option, and builds exactly that sequence when its program is 0..127 and fails with ValueError otherwise; from_file accepts exactly existing files named something.mid or something.midi, and for every valid MIDI file of at most 128 parts building from it succeeds.", "quantifier": "all arguments, sequences, file names and valid MIDI files", "why_tests_cant": "ranges over all arguments, names and files", "anchors": ["neural_graph_composer/midi_graph_builder.py: MidiGraphBuilder.__init__, from_file, from_midi_sequence, from_midi_sequences, build"]}
{"id": "C189", "title": "Which tracks of an object are built", "statement": "For a multi-track object whose tracks were made with create_track/get_track or from a list and numbered 0..127, build builds exactly its tracks in number order and leaves it unchanged; a number outside makes it never succeed. For an object whose tracks were only assigned (seqs[i] = q, set_sequence) build always terminates, builds nothing whatever the notes are, raises ValueError when the numbers are 0..n-1, and empties the track numbered n if there is one among n tracks.", "quantifier": "all histories of calls on the object, all configurations and builder states", "why_tests_cant": "ranges over all call histories; the loop iterates over a list it changes", "anchors": ["neural_graph_composer/midi_graph_builder.py: build", "neural_graph_composer/midi/midi_sequences.py: __getitem__, __setitem__, __iter__, create_track, get_track"]}
{"id": "C190", "title": "A class number leads back to the notes its node shows", "statement": "After any calls on a builder, every graph its generator yields carries a class number for each node, in the order of the nodes; following index_to_hash and hash_to_notes from that number - at once or after any further builds - gives exactly the set of pitches the feature of the node shows, provided no two sets of at most node-size pitches in use have the same hash. With rows of pitches as features, the reverse check of ngc_small_graph.py succeeds at a node exactly when the number of zeros it appends is at least the number of empty places in the row.", "quantifier": "every history of builds, tracks, arguments, iteration order of sets and later calls", "why_tests_cant": "the maps are shared and overwritten by later builds, so the claim ranges over all histories before and after the graph was yielded", "anchors": ["neural_graph_composer/midi_graph_builder.py: MidiGraphBuilder.graphs, build_sequence", "ngc_small_graph.py: index_to_hash, index_checker"]}
{"id": "C191", "title": "Building the same again changes nothing but repeats the graphs", "statement": "Whether a build succeeds and which graphs it appends does not depend on what the builder did before. Calling build again with the same tracks and arguments has the same outcome, leaves all four maps between chords, hashes and class numbers as they were, and appends the same graphs a second time.", "quantifier": "every builder state, list of tracks and arguments, also when the build fails", "why_tests_cant": "ranges over all prior states of the builder and all tracks", "anchors": ["neural_graph_composer/midi_graph_builder.py: MidiGraphBuilder.build, build_sequence, create_graph_node"]}
{"id": "C192", "title": "What the dataset check accepts", "statement": "For a graph with one mask, target and label entry per node the checks of example_read_complex_midi.py pass exactly if every node is in exactly one of the three masks, targets equal labels, there are exactly as many edges as nodes, and every edge joins nodes. A graph built from tracks has at least as many edges as nodes, since every node is entered by an edge; so on such a graph the check passes only if no chord is entered by two edges - it rejects every piece that returns to a chord by another way.", "quantifier": "all masks, targets, labels, edge lists and graphs built from any tracks", "why_tests_cant": "an equivalence over all masks and all graphs", "anchors": ["example_read_complex_midi.py: check_masking, check_edge_index", "neural_graph_composer/midi_graph_builder.py: MidiGraphBuilder.build"]}
{"id": "C193", "title": "Dataset statistics count labels per graph", "statement": "For a freshly processed dataset with labels and no pre-transform, compute_statistics returns the total number of nodes, the total number of edges, and as third number again the number of nodes: labels are distinct within a graph and counted graph by graph, so it is no count of different chords. The number of edges is at least the number of nodes. If labels were removed it raises TypeError.", "quantifier": "all raw files, options and filters for which processing succeeds", "why_tests_cant": "ranges over all datasets", "anchors": ["neural_graph_composer/midi_dataset.py: MidiDataset.compute_statistics", "neural_graph_composer/midi_graph_builder.py: MidiGraphBuilder.graphs"]}
{"id": "C194", "title": "Only the controllers after the music survive reading a file", "statement": "When a MIDI file is read, the track of each playing part (track, channel, program) whose channel shares its controllers holds, in the order of the file, exactly those pitch bends and control changes of the channel whose time is not before the end of any note of the whole file that is kept; they carry their amounts, numbers and values and the times of the tempo map. Those during the music are lost, those of other channels never appear.", "quantifier": "all well-formed MIDI files with at most 128 playing parts, all resolutions, tempo maps and positions of controller events", "why_tests_cant": "It ranges over all interleavings of notes, program changes and controllers in all tracks and channels; which controllers survive depends on the last note of the whole file.", "anchors": ["neural_graph_composer/midi_reader.py: MidiReader.read, read_instrument_pitch_bends, read_instrument_control_changes", "neural_graph_composer/custom_pretty_midi.py: CustomPrettyMIDI._load_instruments"]}
{"id": "C195", "title": "Signatures of a piece converted back to MIDI", "statement": "Converting a multi-track object to a MIDI piece keeps exactly its time and key signatures up to the end of the last note, in their order, with the same numbers and times, a minor key 12 above the major one; signatures that a MIDI piece cannot hold (non-positive beats or unit, key outside 0..23, negative time) make it raise; the resolution is that of the object, or 480 if that is 0.", "quantifier": "all multi-track objects with any histories of added signatures, any notes and any to_end", "why_tests_cant": "It ranges over all histories of signature additions and all ends of notes.", "anchors": ["neural_graph_composer/midi_reader.py: MidiReader.to_pretty_midi", "neural_graph_composer/midi/midi_sequences.py: MidiNoteSequences.slice_time_signatures, slice_key_signatures"]}
{"id": "C196", "title": "Notes that sound together are cut when written and loaded", "statement": "Write an instrument whose notes may overlap (no key struck twice at one tick) with CustomPrettyMIDI and load the file. Every note comes back once, with its pitch, velocity and start. It ends at the first tick after its start at which any note of the instrument starts, or a note of its pitch ends; a note with no such tick lasts to the end of the track, one tick after the last event. So a note that lasts comes back unchanged exactly if no other note starts while it sounds and no other note of its pitch ends while it sounds.", "quantifier": "every instrument with notes, bends and control changes in MIDI range, at every place in every list of instruments, every timing track and drum channel", "why_tests_cant": "The end of a note depends on all the other notes of its instrument; only examples of chords and legato lines can be tested.", "anchors": ["neural_graph_composer/custom_pretty_midi.py:CustomPrettyMIDI.serialize", "neural_graph_composer/custom_pretty_midi.py:CustomPrettyMIDI._load_instruments", "neural_graph_composer/custom_pretty_midi.py:CustomPrettyMIDI._finish_notes"]}
{"id": "C197", "title": "What saving and loading does to a piece with overlapping notes", "statement": "Take any piece whose notes last at least to the next tick, no key of an instrument being struck twice at one tick (notes may overlap). Saved to a new file and loaded, it is the piece in which every note ends at the first time, on a later tick than its start, at which a note of its instrument starts or a note of its pitch ends; every other value is as in C162 (clock from a file) and C163 (made from scratch).", "quantifier": "every piece, every tempo map, every history of queries of its clock", "why_tests_cant": "It ranges over all pieces; each test fixes one set of overlaps and one clock.", "anchors": ["neural_graph_composer/custom_pretty_midi.py:CustomPrettyMIDI.serialize", "neural_graph_composer/custom_pretty_midi.py:CustomPrettyMIDI.from_file"]}
{"id": "C198", "title": "A track saved with to_midi_file is read back note for note", "statement": "MidiNoteSequence.to_midi_file with the default callback writes a file exactly if there are notes and the program, pitches and velocities are MIDI values, else it raises ValueError (also without a callback). If the notes last longer than 1/440 s and those of one pitch start more than 1/440 s apart, reading the file gives exactly one track, with the same program and drum flag, that has every note once with its pitch and velocity, struck within 1/880 s of its start and ended no later than 1/880 s after its end; a note ends early exactly where a later note starts or one of its pitch ends. If no note sounds on when a later one is struck, the ends are kept within 1/880 s too. A callback of one's own gets the instrument, the notes stably sorted by start, and the total time.", "quantifier": "every sequence of notes, instrument and callback", "why_tests_cant": "the claim is about all note lists, with all overlaps and all roundings to ticks; a test fixes one list", "anchors": ["neural_graph_composer/midi/midi_sequence.py:to_midi_file", "neural_graph_composer/midi/callbacks.py:save_midi_callback", "neural_graph_composer/midi/midi_reader.py:MidiReader.read", "neural_graph_composer/custom_pretty_midi.py:serialize"]}
{"id": "C199", "title": "Rescaling velocities is linear and keeps the order of loudness", "statement": "rescale_velocities maps velocities that are not all equal linearly onto [target_min, target_max] (whole parts), in double precision exactly as in exact arithmetic: the quietest gets target_min, the loudest target_max, the order is kept, and rescaling again changes nothing. No velocities raise ValueError; equal velocities all give the platform's conversion of NaN. scale_relative_velocities multiplies by the factor up to one part in 2^49, takes the whole part and stops at 127, keeps the order; with factor 1 a velocity may come back one lower, never otherwise changed.", "quantifier": "every list of velocities, targets in 0..127 and factor >= 0", "why_tests_cant": "rounding of doubles near whole numbers depends on the particular velocities; a test checks a few lists", "anchors": ["ngc_small_graph.py:rescale_velocities", "ngc_small_graph.py:scale_relative_velocities"]}
{"id": "C200", "title": "Grouping notes into chords in double precision", "statement": "compute_data with tolerance_auto, every operation rounded to a double and any double >= 0 as the tolerance: a sounding note with a negative start is an AssertionError, otherwise the groups are the maximal sets of sounding notes whose adjusted starts hash equally; the adjusted start lies within half the tolerance, half a hundredth and a rounding error of 2^-51 relative of the start, and later starts are never adjusted to earlier times. So, without hash collisions, two notes of a group start within tolerance + 0.01 + rounding of each other and every sounding note between two notes of a group is in it. When the starts are clear of the borders between multiples by more than one rounding error the result is exactly that of exact arithmetic with the hash taken of the nearest double; without that clearance it can differ.", "quantifier": "all note sequences, starts, tolerances, hash functions and set orders", "why_tests_cant": "rounding errors depend on the bits of every start and tolerance; a test fixes a few of the infinitely many", "anchors": ["neural_graph_composer/midi_graph_builder.py: MidiGraphBuilder.compute_data"]}
{"id": "C201", "title": "Node.verify accepts no node", "statement": "The consistency check of a node of the interval tree (Node.verify) never succeeds: for every node it raises TypeError when the recorded balance is 2 or -2, agrees with the children's recorded depths and the node holds an interval, and AssertionError in every other case. In particular every node of every tree obtained by insertions, all of which are correctly balanced, is refused with the message that a rotation should have happened. The check keeps intervals, keys and shape; at most it computes the node's own depth and balance anew.", "quantifier": "all nodes, with any recorded depths and balances; all histories of insertions and all nodes of the resulting tree", "why_tests_cant": "a test shows a verdict for one tree; that no tree of any size or history passes needs the balance invariant for all histories", "anchors": ["neural_graph_composer/interval/node.py:Node.verify", "neural_graph_composer/interval/node.py:Node.refresh_balance"]}
{"id": "C202", "title": "A track becomes the same kind of graph in double precision", "statement": "build_sequence with every operation on times and velocities rounded to a double, and any automatic tolerance >= 0: it succeeds for valid arguments, starts >= 0 and acceptable pitches; the graph is the walk through the chords of the sequence (the groups of notes with the same adjusted start, split to the feature size), its weights count the steps, it is connected, and building into a graph continues from the node added last; every node carries the feature, label and hash of one of those chords. The rescaled velocities are exactly 32 + floor(95 (v - min) / (max - min)) in spite of the rounding. When the starts are clear of the borders between two multiples of the tolerance, the graph is the one of exact arithmetic.", "quantifier": "all sequences with velocities 0..127, configurations, builders, graphs built into, tolerances, hash functions and set orders", "why_tests_cant": "rounding depends on the bits of every start and tolerance; unbounded sequences", "anchors": ["neural_graph_composer/midi_graph_builder.py: MidiGraphBuilder.build_sequence", "neural_graph_composer/midi_graph_builder.py: MidiGraphBuilder.rescale_velocities"]}
{"id": "C203", "title": "A multi-track object becomes graphs in double precision", "statement": "build with every operation rounded to a double: per instrument, one graph for each non-drum track with other than one note and at least one chord, in order, the graph of that track alone; otherwise one graph holding all of them, each track continuing from the node added last, and none if no track qualifies. It succeeds for acceptable tracks if the conversion of the graphs does.", "quantifier": "all lists of tracks with velocities 0..127, configurations, builders, tolerances, hash functions and set orders", "why_tests_cant": "unbounded numbers of tracks and notes, and rounding of every start", "anchors": ["neural_graph_composer/midi_graph_builder.py: MidiGraphBuilder.build"]}
{"id": "C204", "title": "Split sizes in double precision", "statement": "int(ratio*n) with the ratio a double: for a ratio written p/q the size is the exact share p*n/q rounded down, or one less only where the exact share is a whole number (the default 0.7 takes 62 of 90 nodes), and exactly the share where the double is not below p/q. The train, validation and test masks still are a partition with those sizes, whether the two doubles or only the two written ratios sum to at most one, and Experiments.split puts every graph into exactly one part.", "quantifier": "all ratios p/q and doubles in [0,1], graph and dataset sizes with p*n below 2^50 (or n below 2^53), permutations", "why_tests_cant": "the size at which a ratio loses a node depends on rounding and is found only by trying every size", "anchors": ["neural_graph_composer/midi_dataset.py: MidiDataset.process", "ngc_shared.py: Experiments.split, dataset_split_mask"]}
{"id": "C205", "title": "Notes are quantised in double precision", "statement": "quantize_to_nearest_step with every operation rounded to a double is monotone, raises ValueError exactly for a rate or amount that is not positive, is within one step of t*sps+(1-amount) up to its rounding, and equals the exact step unless that number is within its rounding of a whole number. quantize_in_place leaves a valid note whenever it succeeds, succeeds for every note of at least a microsecond in the first million seconds at up to ten thousand steps per second, and then moves start and end by at most one resp. two steps plus half a centisecond; a note of one unit in the last place can be refused although exact arithmetic would quantise it.", "quantifier": "all notes, rates, amounts, times", "why_tests_cant": "real-valued times and the rounding of each operation", "anchors": ["neural_graph_composer/midi/midi_note.py: MidiNote.quantize_to_nearest_step, quantize_in_place, quantize"]}
{"id": "C206", "title": "Time and key signatures survive the conversion to a MIDI piece, moved with the notes", "statement": "When to_pretty_midi(from_start, to_end) succeeds, the time signatures of the result are: one where the piece now starts, which is the last signature of the object at time 0 or 4/4 if it has none there; then, in time order, exactly the signatures after time 0 and before the end of the piece (and not after the last note), each with its numbers and moved along the same line as the notes. A signature at the very end is dropped. Key signatures follow the same rule without a default, lyrics are empty.", "quantifier": "every multi-track object, every from_start and to_end, every order of signatures, every argsort of the tempo estimate", "why_tests_cant": "the lists of signatures, their times and the ends asked for are unbounded", "anchors": ["neural_graph_composer/midi_reader.py: MidiReader.to_pretty_midi", "neural_graph_composer/custom_pretty_midi.py: CustomPrettyMIDI.adjust_times", "neural_graph_composer/custom_pretty_midi.py: CustomPrettyMIDI.get_downbeats"]}
{"id": "C207", "title": "Notes in JSON", "statement": "Decoding JSON with the project's note decoder turns every object that has the key __MidiNote__ (whatever its value) into the MidiNote constructed from the arguments under \"data\", with the constructor's defaults for arguments not given and the constructor's refusals; objects are read inner ones first, the first failing member decides the error, values without the marker come back unchanged, and no marked object is left in the result. A marked object without data is a KeyError; data that is not an object, names an argument MidiNote does not have, or lacks pitch, start or end is a TypeError. A note written with all its fields and read again is the same note.", "quantifier": "every JSON value of any depth and size, every note", "why_tests_cant": "JSON values nest without bound and the marker may stand at any depth; tests decode a few literals", "anchors": ["neural_graph_composer/midi/midi_note.py: MidiNoteJSONDecoder.object_hook, MidiNoteJSONDecoder.decode, MidiNote.__init__"]}
{"id": "C208", "title": "Synthesized sound is the normalized mix of the instruments", "statement": "CustomPrettyMIDI.synthesize and fluidsynth return the sum of the instruments' waveforms, as long as the longest, divided by its peak: in exact and in double precision every sample lies in [-1, 1] and one is 1 or -1, unless everything is silent, when every sample is NaN. In exact arithmetic the order of the instruments and a common volume factor do not matter; in both a silent instrument that is not longer than another changes nothing. Without instruments (fluidsynth: without notes) the result is empty; if no waveform has a sample, it is a ValueError.", "quantifier": "every list of instruments and every waveform, of any length", "why_tests_cant": "waveforms are arbitrary and the bound must survive rounding of every sum and quotient", "anchors": ["neural_graph_composer/custom_pretty_midi.py: CustomPrettyMIDI.synthesize, CustomPrettyMIDI.fluidsynth"]}
{"id": "C209", "title": "What the example scripts report as accuracy", "statement": "The test of the graph isomorphism example reports the share of all test nodes predicted rightly, that of the auto-encoder the share of edges and non-edges answered rightly (1/2 counts as no). Example02.test reports the sum of the batch accuracies divided by the number of test nodes: at most batches over test nodes, reached exactly when everything is right, and nan if a batch has no test node. ExampleNodeClassification.evaluate returns only if no batch has a mask column, and then zeros; otherwise the first batch with one fails: AttributeError for a batch in a list, IndexError for one-dimensional masks and for two of the networks, ZeroDivisionError if the first mask is empty, else NameError. Without a batch all of them raise.", "quantifier": "every number and size of batches, all labels, predictions and masks", "why_tests_cant": "the scripts have no tests; the reported numbers depend on all batches together", "anchors": ["example02.py: Example02.test", "ngc_example05_gin.py: Example01.test", "example04_gae.py: VariationGae.test", "example01_node_classification.py: ExampleNodeClassification.evaluate"]}
{"id": "C210", "title": "Loading with from_file", "statement": "MidiReader.from_file(path) returns exactly what reading the file returns and raises nothing but ValueError. MidiNoteSequences.from_file(path, reader) raises ValueError if the reader raises anything; a sequence or list of sequences the reader returns becomes one track per instrument number with all their notes (ValueError if sequences of equal number cannot be merged); anything else, also inside a list, is a TypeError. With the project's own MidiReader it therefore never returns: ValueError for a file that cannot be read, TypeError for one that can.", "quantifier": "every file content, every reader result", "why_tests_cant": "it ranges over all files and all readers", "anchors": ["neural_graph_composer/midi/midi_sequences.py: MidiNoteSequences.from_file, MidiNoteSequences.__init__", "neural_graph_composer/midi_reader.py: MidiReader.from_file, MidiReader.read"]}
{"id": "C211", "title": "Names of notes", "statement": "MidiNote.from_name accepts exactly the names letter, accidentals, octave, cents and gives the note the pitch 12(octave+1)+letter+accidentals+cents/100 rounded (octave 0 if it is missing, so C is pitch 12), moved into 0..127; other names raise ParameterError, an end not after the start AssertionError. The pitch_name of a note is read back as its pitch; different pitches have different names, so label sets of names are equal exactly when the sets of pitches are; a fresh note with the defaults can be made again from its name. pitch_name stays that of the pitch at construction whatever is done to the note later: after a change of pitch it is wrong until the note is copied.", "quantifier": "all strings, pitches, times, velocities, programs, instruments; all sequences of later calls on the note", "why_tests_cant": "Tests see a few names and pitches; acceptance, injectivity and staleness range over all strings and call sequences.", "anchors": ["neural_graph_composer/midi/midi_note.py:MidiNote.from_name", "neural_graph_composer/midi/midi_note.py:MidiNote.pitch_name", "neural_graph_composer/midi/midi_note.py:MidiNote.pitch", "neural_graph_composer/midi_graph_builder.py:pitch_names"]}
{"id": "C212", "title": "Shifting and stretching in double precision", "statement": "shift_times and stretch with every operation rounded to a double: every note keeps all but its times, which are the exact ones up to half a unit in the last place; what started or ended no later than something else still does; total_time stays exactly the end of the last note; a note stays a note if it is longer than the last bits of its new times (always for a microsecond within 2^31 seconds), otherwise it can collapse and then no longer be copied. Shifts to times of 53 bits and stretches by powers of two are exact and undone by their inverse; other shifts and stretches are not. shift_times refuses, unchanged, a sequence whose notes are all quantised, in particular an empty one.", "quantifier": "all sequences, offsets and amounts (no overflow or underflow)", "why_tests_cant": "Rounding depends on every bit of every time; tests see a few times, usually exact ones.", "anchors": ["neural_graph_composer/midi/midi_sequence.py:MidiNoteSequence.shift_times", "neural_graph_composer/midi/midi_sequence.py:MidiNoteSequence.stretch", "neural_graph_composer/midi/midi_note.py:MidiNote.shift_time", "neural_graph_composer/midi/midi_note.py:MidiNote.stretch"]}
{"id": "C213", "title": "Stand-alone quantisers in double precision", "statement": "In doubles, frames_from_times returns the tightest frames covering the event with its ends in frames rounded, which is the exact answer unless an end is as near to a whole number of frames as its rounding; the span of frame k computed as k/fps may get one frame more on either side (0.29 s to 0.30 s at 100 fps gives frames 28 to 30), exactly its frame if fps is a power of two; an event longer than 2^-53 of its position never raises; with a threshold of at least 2^-50 the start moves by none or one frame, with a smaller one it can move backwards. ft_quantize_to_nearest_step rounds the rounded number of steps at the rounded threshold and keeps the order. quantize_to_nearest_step moves a time by at most half a step plus rounding, keeps the order and is idempotent for the first 2^48 ticks. quantize_note_to_step_grid keeps start before end for the first 2^48 steps; for a grid of n steps given as decimals it either takes every time to its nearest step or counts n-1 steps per grid and pushes times further and further: with steps of 0.1 s in a grid of 0.3 s a note at 30 s lands at 45 s. check_quantization accepts exactly the quantised pair.", "quantifier": "all times, rates, thresholds, step and grid sizes, tempi and beats", "why_tests_cant": "The effects depend on the last bits of the operands; tests with a few decimals see either no error or a single lucky case, and the order, idempotence and drift statements range over all times.", "anchors": ["neural_graph_composer/midi/midi_utils.py: frames_from_times, ft_quantize_to_nearest_step, quantize_to_nearest_step, quantize_note_to_step_grid, check_quantization, check_grid_quantization"]}
{"id": "C214", "title": "Connecting the graphs of different instruments", "statement": "connect_instruments raises a KeyError and changes nothing if a node has no label or start time (as in every graph of this library's own builder). Otherwise, when every node names an existing track: on an undirected graph it succeeds, leaves tracks and nodes alone and removes no edge; for every edge of the graph whose ends' tracks have different instruments, the nodes named by overlapping notes of the two tracks that start with these ends become joined with weight 1, and every other edge of the result was there with its weight or is such an edge (possibly for an edge that is itself new). On a directed graph the same holds one way, but the call raises a RuntimeError half-way when it adds an edge to the node whose edges it is going through. If all such edges exist with weight 1 the call changes nothing. A call that succeeds met no edge with an end outside 0 to 127.", "quantifier": "all graphs with integer node names, directed or not, all attributes, weights and adjacency orders; all collections of tracks and notes", "why_tests_cant": "which edges arise depends on the order of nodes and on edges added while the edges are being iterated; tests show single graphs only", "anchors": ["neural_graph_composer/midi_graph_builder.py: MidiGraphBuilder.connect_instruments (437-468)", "neural_graph_composer/midi/midi_sequences.py: MidiNoteSequences.__getitem__", "neural_graph_composer/midi/midi_note.py: MidiNote.overlaps"]}
{"id": "C215", "title": "Beats in double precision", "statement": "With every operation of get_beats rounded to doubles: the beats begin with the requested start and lie before the end (none if the start is not before it). Whatever the tempo map, every signature change between start and end is a beat, to the bit, if signature changes are further apart than np.isclose tolerates. With one tempo the beats never go back, and a beat lasts one beat of the signature in force up to a relative error of 2^-48 unless the next signature change comes before or within tolerance of its end. With one tempo and no signature the beats are start, start+p, (start+p)+p, ... with rounding after each step, p = 60/tempo rounded; the k-th is off by at most k(end+p)/2^48, the number of beats differs from that of exact arithmetic by at most one (both directions happen: 6 seconds at 100 quarters a minute give 11 beats, not 10), and the beats are exact when start and period are multiples of one power of two. The call returns, with strictly increasing beats, when |start|+|end| is at most 2^50 shortest beats; when a beat added to the start rounds back to the start it never returns. Downbeats are beats, and with one tempo exactly the beats that start a bar.", "quantifier": "all tempo maps, signatures, end times and starts for which each part is stated; all numbers of beats", "why_tests_cant": "errors accumulate over any number of beats and whether an extra beat appears depends on the last bit; non-termination cannot be observed by a test", "anchors": ["neural_graph_composer/custom_pretty_midi.py: CustomPrettyMIDI.get_beats (569-678), get_downbeats (741-800), get_end_time (487-505)"]}
{"id": "C216", "title": "Beats across tempo changes, in double precision", "statement": "With every operation of get_beats rounded to doubles and a meter settled by the start (start >= 0), over any tempo map: as long as the roundings cannot add up to a quarter of a beat (slack = 256 (n+2) (end+8hi)/lo (hi/lo) / 2^53 <= 1/4, n tempo changes, beats between lo and hi seconds), the call returns; beats strictly increase, by half the shortest beat at least; between consecutive beats exactly one beat of music is played up to the slack, however many tempo changes lie between; the j-th beat has j beats of music before it up to j slacks; and the number of beats is the music's length in beats, rounded up, or differs from it by one. The downbeats are then every n-th beat from the first, n the beats per bar of the settled meter (4 without one).", "quantifier": "all tempo maps with positive tempi in time order, signature lists with distinct times not after the start, other event times, non-negative starts, all list lengths", "why_tests_cant": "crossing a tempo change converts the rest of a beat by a rounded ratio and may leave a slightly negative remainder or a beat slightly before the change just crossed; only an invariant over all crossings shows these errors do not grow", "anchors": ["neural_graph_composer/custom_pretty_midi.py: get_beats, get_downbeats"]}
{"id": "C217", "title": "Adjusting the times of a piece, in double precision", "statement": "With every operation of adjust_times rounded to doubles and non-negative new times: times travel along one computed map that hits every breakpoint exactly, is exactly constant outside, keeps order inside each zone and is off the exact linear image by less than 2^-48 of it (it may overshoot the next breakpoint by the last digits). Notes in range are carried with their payload iff their computed times keep a length, which every note whose exact new length exceeds twice that rounding does. Events (bends, controls, keys, lyrics, signatures) stay iff they land strictly inside the new range (of those at its start only the latest), in time order up to the rounding, and none whose exact image is inside by more than the rounding is lost. The first downbeat in range gets the signature in force. The tempo list agrees entry by entry with one that conserves musical time exactly, has an entry exactly at each zone's new start, and the written tick scales are its rounded scales: the first on tick 0, every later entry either finding its scale in force or getting one on the tick nearest its exact musical position, up to a rounding slack of 128 n parts in 2^53 of the last tick after n entries. The call fails exactly when and as it does in exact arithmetic.", "quantifier": "all lists of original and new times (doubles, new ones non-negative), all pieces, tempo maps, resolutions", "why_tests_cant": "rounding depends on every bit of every breakpoint; the overshoot needs particular doubles", "anchors": ["neural_graph_composer/custom_pretty_midi.py: CustomPrettyMIDI.adjust_times"]}
{"id": "C218", "title": "Tempo conversions in double precision", "statement": "tempo_to_qpm computes 60000000/us up to two parts in 2^51 and raises ZeroDivisionError exactly for 0; rounding 60000000/qpm gives the whole number of microseconds back exactly (up to 2^48), so different tempi have strictly ordered qpm; the whole part of the qpm is that of the exact quotient whenever us > 1280 (at 1280 it is one less). Every tempo signature's seconds per tick and per quarter are right up to three and four parts in 2^51, bpm is exactly qpm/4 and setting then reading bpm is exact. ppq_to_qpm returns 60/ppq up to four parts, whatever the tempo. The steps-per-second and bpm/qpm helpers are right up to two or three parts in 2^51, exact for whole arguments that divide and for power-of-two note values; the rounded variant is within 5e-11 plus rounding. The length of a measure is the exact one rounded once.", "quantifier": "all positive doubles and integers", "why_tests_cant": "rounding depends on every bit; the whole-number claims range over all tempi", "anchors": ["neural_graph_composer/midi/midi_time_signature.py: MidiTempoSignature, MidiTimeSignature.measure_length", "neural_graph_composer/midi/midi_utils.py: steps_per_second_from_bpm, from_bpm_spq_to_sps, from_spq_to_sps, bpm_to_qpm_np, bpm_to_qpm, qpm_to_bpm"]}
{"id": "C219", "title": "Reported tempi in double precision", "statement": "For a loaded file whose tempi are in 256..2^24-1 microseconds, get_tempo_changes in IEEE double arithmetic never fails and gives the same list whatever tick_to_time calls came before; the first change is at time 0, the times are in order, and at every tick below MAX_TICK the last change reported by that tick's time is the one whose tempo is in force there, its value 60000000/tempo up to five parts in 2^51. The whole number shown for it is floor(60000000/tempo), or one less - possible only when the division is exact (100 bpm at 220 ticks per quarter is shown as 99).", "quantifier": "all resolutions, tempo event lists (up to 2^40 events), last ticks below MAX_TICK, earlier calls and ticks", "why_tests_cant": "Rounding accumulates along the whole tempo map; the order between the times of changes and of ticks must hold for every map and tick.", "anchors": ["neural_graph_composer/custom_pretty_midi.py:get_tempo_changes", "neural_graph_composer/custom_pretty_midi.py:tick_to_time", "neural_graph_composer/midi/midi_sequences.py:tempo_signature"]}
{"id": "C220", "title": "Ticks and seconds after repeated saving, in double precision", "statement": "Saving a file and loading it again any number n of times in IEEE double arithmetic: every tick below MAX_TICK still has one time, whatever was converted before, converting that time gives the tick back (so notes are written where they were), and the time of tick k is at most that of the original file and at least that minus n*k microseconds per resolution (n microseconds per quarter note), up to 6 + (number of tempo events) parts in 2^51. The shift is real: after four rounds of 400147 microseconds at 480 ticks a quarter, tick 480 is over three microseconds early.", "quantifier": "all numbers of rounds, resolutions, tempo maps with tempi of 256+n to 2^24-1 microseconds, last ticks, ticks and earlier calls", "why_tests_cant": "ranges over all tempo maps, numbers of rounds and ticks; rounding depends on every bit and accumulates", "anchors": ["neural_graph_composer/custom_pretty_midi.py:_load_tempo_changes", "neural_graph_composer/custom_pretty_midi.py:write", "neural_graph_composer/custom_pretty_midi.py:tick_to_time", "neural_graph_composer/custom_pretty_midi.py:time_to_tick"]}
{"id": "C221", "title": "A whole piece saved in double precision", "statement": "Loading a MIDI file with CustomPrettyMIDI and serializing it, with the times, tempi and conversions in double precision as the code computes them, ends as it would in exact arithmetic (C164): with the same exception, or with the same tracks, every message the same after the same delay, note for note, except that a tempo may be written as one microsecond per quarter note less.", "quantifier": "all MIDI files with non-negative delta times, tempi of 256 to 2^24 - 1 microseconds per quarter note and at most 2^40 messages in the first track; any resolution, drum channels, key table, and tracks already present when serializing", "why_tests_cant": "rounding depends on every tempo and tick of the file, and a file may have any number of tempo changes, notes and instruments; a test looks at some files only", "anchors": ["neural_graph_composer/custom_pretty_midi.py:from_file", "neural_graph_composer/custom_pretty_midi.py:serialize", "neural_graph_composer/custom_pretty_midi.py:time_to_tick", "neural_graph_composer/custom_pretty_midi.py:_update_tick_to_time"]}
{"id": "C222", "title": "Tempi do not move notes or signatures", "statement": "Two MIDI files that differ only in their set_tempo events - other values, more or fewer of them, at other ticks - each loaded with CustomPrettyMIDI and serialized again, end with the same exception or give the same tracks of instruments, message for message and tick for tick, and the same time signatures, keys and lyrics on the same ticks in the same order, in double precision as in exact arithmetic; serialized onto tracks already in a file, those come first and do not depend on the tempi; only the tempi of the timing track (two that round to the same value are merged) and hence its end may differ.", "quantifier": "all pairs of MIDI files with non-negative delta times, tempi of 256 to 2^24 - 1 microseconds per quarter note and at most 2^40 messages in the first track whose tracks have the same other events on the same ticks and end on the same ticks; any resolution, drum channel and key table", "why_tests_cant": "each tick passes through seconds that depend on all tempi before it, and the way back rounds; no finite set of tempo maps covers this", "anchors": ["neural_graph_composer/custom_pretty_midi.py:from_file", "neural_graph_composer/custom_pretty_midi.py:serialize", "neural_graph_composer/custom_pretty_midi.py:time_to_tick", "neural_graph_composer/custom_pretty_midi.py:_update_tick_to_time"]}
