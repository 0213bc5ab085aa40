# Formal model of prolothar-common in Rocq (Coq 8.16.1)

## Layout

| directory | content |
|---|---|
| `rocq/theories/Model/*.v` | the model: one file per source module, definitions only, every definition cites file and lines in `/repo` |
| `rocq/theories/Spec/*.v` | small specifications (what "occurrence", "edit script", "reachable", "run of a net", ... mean), written without the helper functions of the model. Where a property talks about histories of API calls, the inductive definition of the histories is here and mentions the public methods of the model |
| `rocq/theories/Lib/*.v` | lemmas on lists, dictionaries, strings and sorting |
| `rocq/theories/Proofs/*.v` | lemmas |
| `rocq/theories/Properties/*.v` | the property theorems only, each closed by `exact`, followed by `Print Assumptions`, and examples that their hypotheses can be met |
| `seeded/LOG.jsonl` | wrong programs tried against the theorems: one line per edit of the model |

Theorem names start with the property id (`C01_...`). `_partial` = part of the
property. `_refuted`, `_witness` = a stronger or more natural reading of the
property is false of the code; the theorem contains the counterexample. In
those cases the property states the exact behaviour instead.

## Modelling conventions

* Python values used only through `==`/`hash` are an arbitrary type with a
  boolean equality that reflects Leibniz equality (class `Eq`), or `string`.
* Exceptions are values (`result` type in `Model/Base.v`, one constructor per
  Python exception class that the code can raise).
* A `while` loop is a function on explicit fuel which returns `OutOfFuel`;
  termination theorems state that enough fuel exists, non-termination theorems
  that no fuel is enough.
* Dictionaries are association lists in insertion order; sets are duplicate
  free lists whose iteration order is an argument (`any_order`) wherever it
  can be observed.
* Random generators, schedulers, iteration orders, worker interleavings,
  crash points and calls of external libraries are arguments over which the
  theorems quantify.
* Objects that are shared and mutated (dataset instances, DFG nodes, variables
  of petri nets, events and traces in `LogObjects`) live in an explicit heap; elsewhere values are functional and
  the comment at the definition says so.
* Floats: statistics, scaling and ratios are modelled over the rationals
  (`Q`, `Qc`). Rounding is modelled (binary64, `SpecFloat`) only where the
  property depends on it: the quotient in `prime_factors` (C14) and the split
  index of `Dataset.split` (C60).
* C `int` overflow is only modelled in `CInts` (C144), which says when the matrices of edit distances and common
  subsequences and the counts of graphs stay in range; elsewhere sizes are taken to be below 2^31, except the unsigned
  subtraction in `Statistics.merge` (C18).

## Trusted base

* Coq's kernel (8.16.1) including its virtual machine (`vm_compute` is used in
  examples and witnesses), and the reading of the Python/Cython/C++ source that
  the citations in `Model/` document. The code was not run.
* Axioms: for C91-C94 (code lengths, which need logarithms), C121 (colors),
  `C18_standard_deviation` (both need a square root) and `C80_ends` (which needs
  the exponential function) those of the
  standard library's real numbers, and no other: `Print Assumptions` lists
  `ClassicalDedekindReals.sig_not_dec`, `ClassicalDedekindReals.sig_forall_dec`,
  `FunctionalExtensionality.functional_extensionality_dep` and
  `Classical_Prop.classic` (some of these theorems use only some of them).
  For all other theorems: none. `Print Assumptions` below each of them prints
  "Closed under the global context". The axioms a checker may find in the
  loaded libraries (`Coq.ssr.ssrunder.Under_rel.*` of ssreflect and the sealed
  symbols `Coq.Reals.Rdefinitions.RbaseSymbolsImpl.*`, `RinvImpl.*` of the real
  numbers) come from the standard library; they are not assumptions of any
  theorem.
* No functors, module types, plugins, `Admitted`, section-less `Variable`, or
  disabled kernel checks are used.

## Properties, models and proofs

See `properties.jsonl` for the full statements.

| id | model | proof |
|---|---|---|
| C01-C02 | tables and scan loop of Boyer-Moore over any `Eq` type | loop invariant "no occurrence starts before i-(n-1)"; the offset table entry is shown to be a lower bound of every admissible shift |
| C03 | slices over ranges | arithmetic induction |
| C04 | dynamic program row by row | matrix entry = longest common suffix; accumulator invariant |
| C05 | structural recursion over nested lists | induction |
| C06 | zip / transpose with a permutation argument | induction |
| C07 | breadth-first extension of (left, middle, right) triples | refinement to the recursive definition of k-combinations |
| C08-C09 | DP matrix as function of indices, backtrace with fuel | induction on prefix lengths |
| C10-C13 | cost matrix and backtrace with fuel, integer weights | refinement to inductive edit scripts; the weighted cost is characterised as the fixed point the program computes, witnesses by computation |
| C14 | trial division over Z with binary64 quotient | invariant "no factor below f" |
| C15 | finite sets as duplicate free lists, ratios in Q | counting lemmas |
| C16 | association maps, history as fold | induction over history |
| C17-C18 | Welford updates over Q; the standard deviation over R | algebraic invariants (`field`) |
| C19 | state machine with an oracle stream of buffers | refinement to stream |
| C20-C24, C66-C69 | word combinatorics on lists; suffix tree with explicit insertion | periodicity lemmas; suffix tree invariant "the words readable from the root are the substrings" |
| C25-C34, C70 | logs as lists of traces, shuffles as arguments | list inductions |
| C35, C62 | random draws as oracle streams | induction |
| C36 | query syntax tree | induction |
| C37-C45, C71-C75 | graph state as a heap of node objects with edge lists, aliasing visible | invariant over histories of operations; BFS and component invariants |
| C46-C47 | adjacency lists, two depth-first searches (Kosaraju), recursion with fuel | finishing order invariants |
| C48 | tree with sorted children and binary search | refinement to the multiset of prefixes |
| C49 | state/transition maps | induction over the sequence |
| C50-C53, C76, C77, C83, C89 | marking maps, firing rule, guards over a store of variables, id sets | invariant `wf` over all nets built with the public methods |
| C90 | the pruning loop | every removal is a bypass of one place; forward and backward simulation of firing sequences, composed along the loop |
| C91-C94 | real arithmetic with `ln`; the loop with fuel; lgamma and betaln of scipy as arguments | iterated logarithms drop by a constant (termination); Kraft by comparing with differences of iterated logarithms, phase by phase (its failure over all integers by the same differences, and powers for numeric bounds); counts by enumeration and factorials; telescoping |
| C95-C99 | patterns as nets with names; compositions rename ids and add places and transitions; the language is given by runs from source to sink | every composition is shown to be the disjoint union of the renamed parts plus known transitions; runs are projected on the parts (token games with and without the connecting transitions) and glued together; language equalities for arbitrary nestings by induction |
| C100-C104 | data frames as lists of column names and rows; `groupby` by distinct keys in ascending order; csv text as a string | rows of uniform logs are described cell by cell; groups are filters of the rows; counts are occurrences in lists and sum up over distinct keys; joined names and csv lines are parsed back from the front |
| C105-C106 | ARFF text as a string: `splitlines`, `split`, `strip`, the csv state machine, `int`; `str` of a value is an argument | files are documents (attributes, dense and sparse rows) printed as text; reading is proved to invert printing for plain text; exports are shown to be printed documents |
| C107-C109 | pm4py nets as lists of numbered objects and arcs with weights, sets in any iteration order; pm4py logs as lists of attribute dicts | the loops are followed with an invariant for the arcs added so far; runs are simulated in both directions; reading is characterised trace by trace |
| C110-C111 | the result collector as nested dicts; saving gives the list of entries appended and figures saved | the dicts are shown to be a table of the history of calls; then the loops of `save_plots` are followed for this table |
| C112 | traces hold the address of the instance in the heap of datasets | loop over the members; the invariants of dataset histories give unique ids |
| C113 | the printed text as a string, formatting of numbers as an argument | bounds of integer division |
| C114 | streams, and a small language of programs that print, raise, catch and nest blocks | induction on the program against a denotational specification |
| C115 | main thread and timer thread as a transition system driven by any schedule | an invariant over all schedules; a measure for the steps after the interrupt |
| C116 | programs of with blocks, calls and exceptions over a model of pyplot's figures | induction over the program against a trace that knows nothing of pyplot |
| C117 | `plt.subplots` with its squeezing of dimensions | case analysis on the sizes |
| C118 | counting and sorting, as handed over to matplotlib | stability of the sort, induction |
| C119 | arrays as shape and cells, color ranges over the rationals | monotonicity of the normalisation; row-major indexing |
| C120 | the comparison protocol of Python with `total_ordering` | case analysis; induction over the sort |
| C121 | the formula over the real numbers | squares of both sides |
| C122 | the text that graphviz writes, character by character | decoding: names up to the next blank or quotation mark |
| C123 | the statements handed over to graphviz | permutation of the sorted lists; linear interpolation |
| C124 | rounds that remove sources and the edges into their successors; the subgraphs of the drawing | invariant: what is left after i rounds; layers are distances |
| C125-C127 | the statements handed over to graphviz | injectivity of the names; any worklist order is a permutation of level order |
| C128 | walks with the random choices as an argument; the subgraphs of the drawing | invariant over the values pushed; rounding to the nearest integer is unique |
| C129 | ray as a store of objects, tasks run in any order | invariant: what is stored is what the functions return; a measure that falls with each step |
| C130 | the construction of the tree, with the numbers of its nodes | leaves and branching words of the compact tree; counting descendants; simulation of the tree by node objects with parent links, edge dictionary and remembered counts |
| C131 | the table grouped by activity, with the columns of the attributes | folds for least, greatest and average over the present cells of a group |
| C132 | processes as a transition system over one shared file | invariant: every byte is right, zero, or still to be written; a measure that falls with each step; killed processes simulated by ones that make no more steps; schedules as witnesses |
| C133 | the sorted values and the cut points between them | the k-th value is below the i-th cut point iff k is at most its position; the number of positions between two cut points |
| C134 | training of bins with rounding as an argument | different quantiles in ascending order; the same count for unrounded edges; a dataset as witness for the rounding |
| C135 | nested graphs after a list of calls | induction over the calls, invariant about ids and equal edges |
| C136-C139 | logs as addresses of objects in a store: events, traces, lists, dictionaries | each loop over traces touches one trace and new objects only (frame lemma), refinement of the model on values; independence by induction over the program; witnesses |
| C140 | base 64 over bytes, the image of a figure as an argument | three bytes at a time; the bits of the text are the bits of the bytes |
| C141 | the stopwatch with any clock | induction over the calls against the position of the last start |
| C142 | variables with kinds and bounds | induction over the assignments |
| C143 | transformers that return the state together with the exception | generic loop lemma with the first failing attribute; agreement with the transformers of C61, C62, C82, C87, C88; framing |
| C144 | the matrices over optional 32 bit values, None = overflow | relation between the cells of two matrices, indexed by the distance from the corner |
| C145 | the colors of all node objects beside the graph | node objects are only added with new numbers or only removed; decoding of the text as for C122 |
| C146, C147 | `repr` of strings, lists, traces and logs as text | reading a quoted string back character by character; lines end at the first line break |
| C148 | dictionaries of pm4py objects in the store of `LogObjects` | everything new has an address above all old ones; edits never write old dictionaries |
| C149 | events as finitely branching trees, comparisons with exceptions | induction on the nesting of events |
| C54-C56 | workers and queues as a small-step transition system | invariant over every schedule; measure for termination |
| C57-C58, C78-C80 | distance matrix, loop with fuel; for C80 also over the real numbers | decreasing cost measure; for C80 the product of the normalising sums grows (Jensen's inequality) |
| C59-C61, C81, C82, C84-C88 | dataset as instance map and attribute map over a heap of instances | invariants over histories |
| C63 | file system map with crash points | invariants over histories |
| C64 | item tables | round trip |
| C65 | node map with parent pointers | well-founded induction on nesting |

## What is modelled

| file in `/repo/prolothar_common` | model | not modelled |
|---|---|---|
| `collections/list_utils.pyx`, `tuple_utils.pyx`, `set_similarity.py`, `two_way_dict.py` | `ListUtils`, `TupleUtils`, `SetSimilarity`, `TwoWayDict` | - |
| `longest_common_subsequence.pyx`, `levenshtein.pyx` | `DP`, `Lcs`, `Levenshtein`, `CInts` | OverflowError for arguments that are no C ints |
| `math_utils.py`, `random_utils.py` | `MathUtils`, `RandomUtils` | - |
| `mdl_utils.pyx` | `Mdl` (over the real numbers) | rounding of doubles, overflow of C ints |
| `experiments/statistics.pyx` | `Statistics`, `StandardDeviation` | printing |
| `models/patterns.py`, `models/suffix_tree.py` | `Patterns`, `SuffixTree`, `SuffixObjects` | the type check of the word |
| `models/eventlog/*`, `lognoise/*`, `models/log_queries/*` | `EventLog`, `LogNoise`, `LogQueries`, `LogTables`, `LogObjects`, `ComplexEvents`, `Printing` | xes files, `repr` of events, column types of pandas |
| `models/log_statistics.py` | `LogTables` | column types of pandas |
| `models/directly_follows_graph.pyx`, `models/dfg/*` | `Dfg`, `Drawings`, `Colors` | colors that are None, counts beyond 32 bits, forbidden edges that are not in the graph or listed twice (the compiled code then reads attributes of None) |
| `models/diintgraph/*` | `IntGraph` | memory management |
| `models/prefix_tree/*`, `models/labeled_transition_system/*` | `PrefixTree`, `Lts`, `Drawings` | `str` of symbols and states |
| `models/data_petri_net.py` | `PetriNet`, `Variables`, `Drawings`, `Printing` | `repr` of places and transitions |
| `pm4py_utils.py` | `Pm4py`, `Pm4pyObjects` | pm4py itself beyond places, transitions, arcs, markings and attribute dicts; `None` as name of an activity |
| `experiments/result_collector.py` | `ResultCollector` | drawing by seaborn and matplotlib (taken not to raise), the layout of the text file and its number formats, dashes, legend position; square roots; other types of x than int and str |
| `models/activity_pattern.py` | `ActivityPattern` | maps that are neither `str` nor `dict` (TypeError) |
| `parallel/multiprocess`, `parallel/threading`, `parallel/single_thread`, `parallel/ray` | `Parallel`, `Ray` | process start-up and pickling, `ray.init` |
| `clustering/*` | `Clustering`, `FuzzyReal` | scikit-learn algorithms (arguments), sgt encoding; fuzzy clustering with a coefficient that is not positive |
| `models/dataset/*` | `Dataset`, `TargetDatasets`, `Transformers`, `FailingTransformers`, `Discretization`, `Arff` | how `pandas.qcut` rounds edges and what it does with a single value, unicode beyond 8 bits in files, the state in which an interrupted noise leaves its generator |
| `testing/non_productive_result_cache.py` | `ResultCache`, `CacheRace` | pickle format |
| `models/converter/*` | `Converter` | - |
| `console_utils.py` | `Console` | characters beyond 8 bits, number printing |
| `timeout.py` | `Timeout` | real time; interrupts from elsewhere; calls outside the main thread |
| `experiments/plots/*` | `Plots`, `Histogram`, `Heatmap`, `Base64` | matplotlib itself beyond what `Plots` says; `density.py`, colors and fonts; NaN |
| `func_tools.py`, `color_utils.py` | `FuncTools`, `Color` | `do_nothing`, `identity`; rounding of floats |
| `gviz_utils.py` | `Dot`, `Drawings` | rendering to files and displays; `Dot` models the text of graphviz 0.20 |
| `experiments/stopwatch.py` | `Stopwatch` | - |
| `models/transactions.py` | `Transactions` | number printing |
| `models/nested_graph.py` | `NestedGraph` | - |


Not expressible: float rounding in general, wall clock times, memory safety of
Cython code, file formats of external libraries (pm4py, pandas, matplotlib,
graphviz).

## Deviations from the documented behaviour found on the way

The theorems state the behaviour of the code as it is; these are the places
where it is not what one would expect.

* C12: `backtrace` reverses the operations inside its loop, so they are not in
  sequence order. C13: the borders of the cost matrix ignore the weights.
* C14: above 2^53 the float quotient makes `prime_factors` wrong (2^54+2).
* C16: the inverse view of `TwoWayDict` keeps stale keys.
* C18: the third moment is wrong after merging a larger into a smaller object.
* C24: left-maximality is not tested (`v not in word` compares a list with
  symbols); '$' in the sequence crashes.
* C26: transition ids are lost in the dictionary round trip.
* C45: `join` does not add counts and registers an edge twice.
* C51: a failing `force_transition` may already have taken tokens.
* C54-C56: a StopIteration of the mapped function truncates the multiprocess map.
* C59: a removed attribute name used again, and instances shared between
  datasets, break the bookkeeping. C60: rounding can leave the test set empty.
* C61: one-hot column names can collide.
* C64: the order of the 'ac' line. C65: high level edges can be lost.
* C76: enabledness is read off wrongly outside safe markings.
* C84: late attributes are only counted for later instances; asking for an
  unknown label enters it. C85: stale symbols after replacing a sequence.
* C88: a value below all bins gets the last bin.
* C90: pruning loses tokens on removed places and, where end places are
  merged, runs.
* C91: the constant of the universal code is 2.8565064 where the literature has
  2.865064 (a digit was inserted). Over all C ints Kraft's inequality still
  holds; over all integers it does not (both proved).
* C96: composing patterns that share ids fails or not depending on the nesting.
* C98: an interleaving always leaves a token behind, and its parts do not
  exclude one another.
* C99: `choice_list` renames places one after the other; with ids that carry
  apostrophes it fails or loses places.
* C100: with different attributes values are below the wrong column name.
  C101: traces with equal ids are merged when read back.
* C102: with different attributes wrong cells are counted as activities.
  C103: different variants can have the same name. C104: line breaks are not
  quoted.
* C105: names and categorical values with blanks are written but cannot be
  read; a dataset without attributes loses its instances; `==` of datasets
  depends on the order in which sets are iterated.
* C106: the default separator of target sequences is not the one the reader
  splits at; files of datasets without labels or without attributes cannot be
  read.
* C107: guards, variables and tokens are dropped and the sources get one token
  each; a transition named like a place it has arcs from and to loses one of
  them, and a transition with places on one side only loses all its arcs.
* C108: weights of arcs are dropped.
* C109: events lose their attributes, and an event log taken back from pm4py is
  not equal to the one handed over.
* C110: miners with fewer points than another one are left out of text files and
  figures, and a label can share its x with an int.
* C111: colors and markers are wrong if a miner other than the last is left out,
  the x axis is that of the first miner, and result types like `a` and
  `a_with_legend` overwrite each other's figures.
* C112: the attributes of the traces are the feature dicts of the instances, so
  later changes of the dataset change the log.
* C113: beyond the total the bar is longer than its length.
* C114: blocks that overlap without being nested leave a closed stream behind.
* C115: a finished function can lose its result to the interrupt, and the
  interrupt can hit the caller after the call.
* C116: `plt.close` and `plt.show` work on pyplot's current figure or on all
  figures, not on the figure of the context; if saving fails, the log file stays open.
* C118: an empty collection raises a ValueError.
* C119: the default threshold is not the middle of the color range but the
  middle between its lower end and the largest value; a list as data, which the
  code asks for, raises an AttributeError.
* C120: two objects of the class of `Min` are each smaller than the other.
* C122: graphs are compared by the texts of their drawings; activities with
  colons or quotation marks can make different graphs equal.
* C123, C127: graphviz takes what stands behind a colon for a port, so edges of
  such activities and places are drawn at another node.
* C124: activities that no source leads to get no node statement of their own.
* C132: a call that overlaps the writing of the cache file can raise or return a
  wrong result, and the file can be a mixture of two results.
* C134: edges are rounded to three digits for their texts, and the rounded ones
  are used to transform, so buckets need not be equal-sized.
* C136: joining an event with itself adds its duration too often. C137: a copy of
  a log shares its events, so changes of attributes show in both; a log with an
  empty trace cannot be copied. C138: edits of a train log change the whole log
  and can leave empty traces in it. C139: the dictionary form of a log shares its
  attributes.
* C141: the stopwatch reads the wall clock, so elapsed times can be negative.
  C142: nothing keeps the value of a variable within its bounds.
* C145: copies lose the colors of nodes, so a painted graph differs from its copy.
* C147: the id of a trace is printed as it is, so ids with parentheses and line
  breaks can make different logs look the same.
* C148: a log read from pm4py shares the attributes of its traces with the pm4py
  log, but not those of its events.
* C149: comparing a `ComplexEvent` with an `Event` of the same name raises an
  AttributeError; its transition is ignored by comparisons.
