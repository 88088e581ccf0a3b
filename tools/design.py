#!/usr/bin/env python3
"""Regenerate the per-property table of DESIGN.md from properties.jsonl and MANIFEST.json."""
import json, re, glob, os
root = os.path.dirname(os.path.dirname(os.path.abspath(__file__)))
props = [json.loads(l) for l in open(f'{root}/properties.jsonl') if l.strip()]
man = {c['property']: c for c in json.load(open(f'{root}/MANIFEST.json'))['claims']}
METHOD = {
    'SongTempo': 'the simulation of C221 across two tempo maps: tables of equal length whose entries convert to the same ticks; stable sorting by rank commutes with leaving out the tempi',
    'SongF': 'simulation between the exact and the rounded piece: every table entry has a rounded counterpart that converts to the same tick (C159), so signatures, notes and controllers agree; merged scales have equal ties because rounding is injective on MIDI tempi; stable sorting respects the relation',
    'Convert4': 'the first downbeat is the first beat (induction over the spans); a retimed list on a strictly rising line',
    'Tighten5': 'corollary of the bijection',
    'SplitF': 'relative error bounds; distance of a fraction from a whole number',
    'NoteJson': 'induction over the nested values, case analysis over the arguments',
    'Synth': 'the mix at each sample, monotony of rounding',
    'Evaluate': 'counting by induction over batches and nodes',
    'FromFile': 'case analysis over what is read, on top of C35',
    'ReportF': 'invariant of the grown tick table (scales unchanged, times those of the exact segment formula rounded), strict increase of the times, relative-error composition for each tempo, and the error bound 60000000*5/2^51 < 1/2 for the whole part',
    'Resave': 'C158, C159 and C160 composed: the tempo of every tick falls by at most one per round (induction on rounds), so by summation over ticks the exact time falls by at most n*k/(10^6*resolution); the double time is within the rounding bound of the exact one of the resaved map',
    'TempoF': 'relative-error composition (each rounding one factor 1 +- 2^-53); round trips by showing the error below one half; the whole-part claim by the error bound when the quotient is not whole and by kernel computation over all whole quotients otherwise; exactness from scaling by powers of two',
    'AdjustF': 'interpolation within six roundings of the exact one by composing relative errors; monotone inside a zone because rounding is; lists by induction as for C133-C136; tempo lists entrywise against the exact ones; tick positions by an invariant on the distance from the exact position',
    'BeatsF': 'invariant of the beat loop relating the pending signatures to the rounded next beat; across tempo changes, an invariant on musical position plus remainder whose error grows by a constant per change; induction on the beats; termination by a measure',
    'Connect': 'the set of edges a pass adds, composed over notes, edges and nodes; induction over the iteration with its snapshot of neighbours',
    'UtilsF': 'chains of relative error bounds; floors and nearest integers pinned by the bounds',
    'ShiftF': 'monotonicity and error bound of rounding, lifted to notes and lists',
    'NoteName': 'the regular expression as a parser, proved equal to a grammar of names in both directions; induction over numerals and over call sequences',
    'NoteF': 'error bounds of the rounded operations, case analysis over the setters',
    'GraphF': 'rounded quotients keep their floor; lemmas of the exact model transferred to any grouping',
    'Rounding': 'nearest integer of the scaled value',
    'NodeVerify': 'balance invariant of insertions, case analysis',
 'Interval': 'arithmetic on closed intervals', 'SortedDict': 'refinement to a finite map, induction over call lists',
 'FloatInterval': 'arithmetic and order laws', 'Tree': 'invariant over call histories, AVL invariant',
 'TreeSet': 'invariant over histories of several trees', 'SeqMore': 'induction over call histories; order and rounding arithmetic', 'TreeMore': 'invariant over histories; induction on the node tree', 'Note': 'arithmetic; invariant over setter histories',
 'Events': 'arithmetic, order laws, invariant over constructions', 'Seq': 'invariant over call histories, list lemmas',
 'Seqs': 'invariant over call histories, sortedness', 'Ticks': 'induction over tempo changes', 'Load': 'induction over messages with a simulation of note pairing',
 'Write': 'induction over events; inverse of loading', 'Reader': 'induction over notes', 'Graph': 'invariant over chord lists',
 'Transforms': 'list and matrix lemmas', 'Experiments': 'list lemmas', 'Utils': 'arithmetic', 'Scales': 'finite tables lifted to all arguments, modular arithmetic',
 'Dataset': 'list and permutation lemmas; crash points as prefixes of write lists',
 'EventOrder': 'order laws of near times; case analysis on fields; induction over lists',
 'Rolls': 'induction over the instruments, exchange of finite sums',
 'Meta': 'induction over the events of the first track on top of the tick table invariant',
 'Train': 'case analysis of arguments; counting by classes (finite sums); induction over epochs',
 'Velocity': 'relative error bound of three roundings',
 'Link': 'real analysis of the sigmoid',
 'Network': 'one simulation lemma along paired predecessors, by induction over the convolutions; entrywise unfolding of the list operations',
 'Download': 'induction on the list of files with the file system as state; last writer of a name wins',
 'Decode': 'invariant over histories that every registered chord and every node shows the pitches behind its hash; a log of registrations independent of the builder',
 'Checker': 'induction over masks; every element of a walk is first reached by a step',
 'Stats': 'from the contents theorem of C111: labels are injective images of distinct nodes; every node is entered by an edge',
 'Builder': 'invariants of the registration map along the live iteration; measure of unregistered numbers for termination; pathlib suffix by induction on names',
 'Traverse': 'loop invariant: heap entries are walks, visited distances are least; potential of unvisited edges for termination',
 'Adjust': 'induction over the breakpoints; monotonicity and uniqueness of interpolation; additivity of the tempo integral, zone by zone',
 'Song': 'composition of the round trips of tracks, tempo map and signatures (C82-C84, C147) through nearest ticks, permutations and stable sorting',
 'Convert2': 'the inverse of adjust_times on a clock with two entries at tick 0 computed; the written file composed with the round trip of pieces made from scratch (C163) and with reading (C167); survivors of reading are deterministic', 'Convert': 'induction over the tempo list with the table of tick times reset to [0]; the two-point time map of adjust_times (C132-C137) evaluated to a line; consecutive sorted onsets characterised',
 'Pipe2': 'C81 (controllers of a channel), C43 (reading) and C167 composed; the end of the piece characterised by the kept notes', 'Snap': 'monotonicity and relative error of each rounding composed; stability of rounding off half-integers; the grouping invariant of C44', 'Rescale': 'relative error of rounding against the distance 1/d of a quotient to the next whole number; monotony of rounding', 'SaveSeq': 'C196 and C167 composed: the file written is computed symbolically, its ticks bounded by the distance to the nearest tick, its one part found by the specification of reading', 'Cut': 'the written track as a sorted list of events; the first event that closes a note is the least of the ticks that stop it; lifting to seconds by choosing the time of that tick', 'Convert3': 'inversion of the conversion; filters of sorted lists as selections, order by C76',
 'Pipe': 'composition of loading (C40, C162), the tempo map (C37, C80), reading (C42) and graph building (C45, C46, C90), transported along Forall2 between ticks and seconds',
 'Float': 'rounding error analysis (relative error per rounding, monotone rounding), induction over the tempo map',
 'Tempi': 'invariant of the clustering loop (counts, mass, range); argmax',
 'NoteExtra': 'arithmetic of rationals and (frequencies) reals',
 'Beats': 'loop invariant and ranking function; induction over the run'}
where = {}
for f in sorted(glob.glob(f'{root}/rocq/theories/P_*.v')):
    for m in re.finditer(r'^(?:Theorem|Corollary|Lemma)\s+([\w\']+)', open(f).read(), re.M):
        where[m.group(1)] = os.path.basename(f)[2:-2]
rows = ['Property | title | files | method | theorems', '---|---|---|---|---']
for p in sorted(props, key=lambda p: int(p['id'][1:])):
    c = man.get(p['id']); ths = c['theorems'] if c else []
    mods = []
    for t in ths:
        m = where.get(t, '?')
        if m not in mods: mods.append(m)
    rows.append(f"{p['id']} | {p['title']} | {', '.join('M_/P_' + m for m in mods)} | {'; '.join(METHOD.get(re.sub('[0-9]+$','',m), 'list and arithmetic lemmas') for m in mods)} | {', '.join(ths)}")
d = open(f'{root}/DESIGN.md').read()
d = re.sub(r'<!-- table -->.*<!-- /table -->', lambda _: '<!-- table -->\n' + '\n'.join(rows) + '\n<!-- /table -->', d, flags=re.S)
open(f'{root}/DESIGN.md', 'w').write(d)
