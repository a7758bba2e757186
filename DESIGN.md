# Formal model of JPStream: design

The sources in `/repo` are read as text; nothing in them is built or executed.
Everything below lives in `rocq/theories` (logical name `Verif`, Coq 8.16.1).

## 1. Modelling conventions

* Bytes are `ascii`, buffers are `list ascii`; pointers into a buffer are `Z`
  offsets. A read is checked: offset = length gives the terminating NUL, any
  other offset outside the buffer is undefined behaviour.
* Undefined behaviour is a distinct outcome (`UB reason` of type `res A`):
  out-of-bounds reads and writes (fixed-size arrays keep their C capacity),
  reads of uninitialised fields, use of released memory, NULL dereference.
* C `int` values are `Z` without overflow (inputs below 2 GB, a stated
  precondition); memory allocation never fails.
* `double` arithmetic of filter expressions is a parameter record: theorems hold
  for every interpretation of it.
* Loops are structural where the C loop has an obvious measure, otherwise they
  carry fuel; running out of fuel is a separate error and theorems exclude it.
* Every model definition cites the file and lines it models and says what was
  simplified.
* Specifications (JSON documents with explicit whitespace, JSONPath semantics,
  filter semantics) are separate files that import nothing from the model.

## 2. Layers

Model files (each definition cites the lines it models):

| file | models | content |
|------|--------|---------|
| `Util.v` | `utility.c` | ltrim, substring, substring_in_place, strcopy |
| `Lexer.v` | `lexing.[hc]` | nextToken byte for byte |
| `Regex.v`, `Mixer.v`, `Compress.v`, `Builder.v` | `DFABuilder` | positions, subset construction, product, packed table, query contexts |
| `Dfa.v` | `dfa_builder.h` | transition/accept/range lookup |
| `Constraint.v` | `constraint.h` | the table of observed transitions |
| `Stream.v` | `stack.h`, `streaming_automaton.[hc]`, `tuple_list.h` | serial engine, training run |
| `Num.v`, `Eval.v`, `Filter.v` | `jsonpath_evaluator.h`, `predicate.[hc]`, `output.h` | numbers (a parameter), expressions, buffered filtering |
| `Loader.v` | `file_partition.[hc]` | loadBoundedFile, partitionInputStream, partitionFile |
| `Run.v` | `path_processor.h` | createPathProcessor, serialRun, collectDataConstraints, life cycle |
| `Worker.v` | `multi_stack.h`, `unit.h`, `worker_automaton.[hc]` | one speculating thread |
| `Cells.v` | `output.h`, `tuple_list.h`, `stack.h`, `utility.c` | the same containers as C arrays with arbitrary old contents |
| `CellTab.v` | `constraint.h` | the table of observed transitions as C arrays |
| `CellFilter.v` | `predicate.[hc]` | the filtering stage on these arrays |
| `CellEngine.v` | `streaming_automaton.[hc]` | the serial engine on these arrays |
| `CellTrain.v`, `CellRun.v` | `streaming_automaton.c`, `path_processor.h` | training runs and serial runs on these arrays |
| `Merge.v` | `parallel_automata_execution.h`, `path_processor.h` | merging phase, parallelRun, parallelRunOpt |
| `Sched.v` | `main_thread`, thread creation and joining | interleavings of the threads' steps |
| `Parser.v` | `scanner_j.l`, `parser_j.y`, `jsonpath_model.h` | longest match scanner, the grammar with its precedences |

Specifications, which import nothing from the model (the vocabulary of the
statements): `Base.v` (bytes, `res`), `Spec.v` (JSON text with whitespace,
JSONPath meaning), `QueryClass.v` (classes of queries, limits), `PosSpec.v`
(offsets of values), `LexSpec.v`/`MalSpec.v` (token sequences), `FilterSpec.v`
(meaning of filters), `Claims.v` (the documents the claims speak about),
`SliceSpec.v` (slices after `..`), `FinalSpec.v` (queries that end in a filter), `CutSpec.v`/`ParSpec.v` (pieces and cuts), `NestSpec.v` (well nested tokens),
`ParseSpec.v` (how queries are written), `RelaxSpec.v` (queries that ask for more),
`VerbSpec.v` (texts inside of texts), `RecSpec.v` (files of several records), `PipeSpec.v` (two stages), `DueSpec.v` (values that end before a cut). `AutoSpec.v`, `TrainSpec.v` and
`ReportSpec.v` speak about a compiled automaton through its lookup functions.

Proof files: `LexProof`, `LexDoc`, `LexMain`, `LexClaim`, `LexLocal`, `LexSafe` (lexing);
`CompressProof`, `RegexProof`, `MixerProof`, `AutoProof`, `BuilderProof`, `Roles`,
`Compiled`, `AutoClaim`, `Lost` (compilation); `TreeSem`, `TreeSel`, `TreeInv`,
`SelProof`, `SelFilter`, `FilterProof`, `EvalProof`, `EndToEnd`, `ClaimProof`,
`PosProof`, `SliceProof`, `SliceAny`, `SliceOne`, `FinalFilter`, `FinalMore`, `TestedField`, `DescBuild`, `DescFilter`, `Compose`, `QueryMore`, `AnyQuery`, `AnyRun`, `FilterClaim`, `Trunc`, `Due`, `DueRun`, `Malformed`,
`MalRun`, `Records`, `Pipe`, `Noise` (serial runs); `Flat`, `Cut`, `LoaderProof`, `Pieces`, `PieceRun`, `PieceDoc`,
`LoadClaim` (pieces); `Train`, `TrainDoc` (training); `SchedProof` (schedules);
`ParseProof` (parser); `Chains` (linked tuples), `WorkRep`/`Shared` (the array
representation of the query stacks as levels of nodes with roots), `Single`,
`SingleRun` (thread 0), `Specul`, `Pruned`, `Units`, `Report` (a speculating
thread), `Steps`, `MergeProof`, `ParCalm`, `ParDoc`, `ParTrain`, `ParSlice` (merging); `Ends` (termination);
`Relax` (two queries side by side), `Verbatim`, `VerbPar` (where output texts come from); `CellsProof`,
`CellFilterProof`, `CellEngineProof`, `CellTabProof` (containers as arrays). `Samples` and `Findings` hold the documents and
queries of examples and counterexamples.

`Props_*.v` contain the theorems of `MANIFEST.json`, each followed by
`Print Assumptions` and accompanied by an `Example` that meets its hypotheses.
A property that is only proved in part has its full statement as `Cxx_full`, the
proved part as `Cxx_partial`, counterexamples as `Cxx_refuted`.

## 3. How each property is treated

* C01, C02, C03 - end-to-end theorem (`EndToEnd`): compiled automaton (C04),
  lexing (C07), serial engine by induction on the document, filter. Counterexamples
  outside the class.
* C04 - soundness and completeness of the position automaton, invariants of the
  subset construction and of the product, table extraction.
* C05 - from the row structure given by C04.
* C06 - invariant of the packed table, induction over the rows.
* C07, C08, C09 - induction over the text from an arbitrary lexer state. Findings:
  `"a":1}` is read as `1}`, a leading minus is dropped, a line break after a number
  becomes part of it.
* C10-C15 - corollaries of the induction for the serial engine with their own
  statements; C11-C13 for every query that compiles (`AnyQuery`, `AnyRun`). C14
  up to 100 levels; beyond, pushes are dropped. C15 by monotonicity of prefixes
  (`Trunc`); that a truncated document has already delivered every selected value that
  ended before the cut (C15_ended_partial) by induction over the document with its
  events split at the cut (`Due`, `DueRun`), for queries without filters.
* C16 - arbitrary bytes. `LexSafe`: by induction over the bytes the lexer stays inside
  the stream if no word directly follows a string (C16_tokens). `Malformed`: an
  invariant of the two stacks for streams in which no bracket closes a brace
  (C16_partial), with a bound on what the tuple list can hold (C16_small); `MalRun`:
  whole serial runs of queries without filters (C16_run). Each condition is shown to
  be needed by a counterexample; with a filter a stray brace makes the filter stage
  read below its stack (C16_refuted_filter).
* C17 - positive up to the sizes of the buffers; beyond them memory is overwritten.
* C18, C19 - induction over the remaining bytes; the search for a cut runs past the
  extension buffer (C18) and past the end of the stream (C19), `partitionFile`
  writes past its arrays.
* C20 - documents none of whose strings look like a cut (`tame`); a string ending
  in a comma is cut.
* C21 - splitting theorem for the engine (`PieceRun`); refuted when a selected
  container is open at the cut.
* C22 - ownership model of `serialPartialRun`: the second load reads a released
  automaton, for every file with two loads.
* C23 - simulation in three layers. `Specul`: one thread keeps, for every start
  state, a stack whose levels are views of the shared node array, and a chain of
  tuples; by induction over the tokens each equals a serial run. `Units`: the same
  across the unmatched brackets of a chunk. `Steps`,
  `MergeProof`: the merging phase continues the serial run by the result for the
  state it is in. `ParDoc`: induction over the chunks of a document;
  `ParCalm`: no array whose elements are selected, and none to which a slice is
  applied, is open at a cut, so that no thread has to continue from a
  state with an index range. An array to which a filter is applied may be open at
  cuts if it starts in the first chunk: its nodes are then completely set, and its
  elements are reported by later threads (C36_filters). All supported queries;
  counterexamples for cuts inside of other arrays (`C23_refuted_undefined` for a
  filter whose array starts later, `C23_refuted_counts` and `C23_refuted_carried` for
  slices: later chunks do not count all elements). `Tables`: beyond 100 states or
  100 chunks every parallel run is undefined; a counterexample for 500 nodes.
* C24 - interleaving semantics with private states, confluence; also for schedules
  that reach undefined behaviour.
* C25 - invariant over token histories; a slice adds state 0, and the unset name of
  the array entry is compared with keys.
* C26 - the simulation of C23 with threads that keep only the states a table
  lists (`Pruned` renames the chains of the kept states, `Units` carries the
  choice), provided the states the serial run passes through are listed
  (`ParTrain`, by C25); C26_documents states this for training documents and all
  supported queries without slices, `C26_slices` with slices. A chunk whose prediction fails is read again with unset
  fields (counterexamples).
* C27, C28 - evaluator against a denotational meaning; an absent field counts as 0.
* C29 - splitting of the fold with the persistent filter context.
* C30-C35 - counterexamples by compiled queries, and the positive range where one
  exists: C30 a run with an index step is a run without it; C32
  the pattern of the filter is the output and its fields are conditions of no filter, so
  that all elements and all mentioned fields are returned (`FinalFilter`), which is the
  answer exactly if every element qualifies and none has such a field (`FinalMore`); C33 by the step-wise
  meaning of queries (`Compose`) when the steps after the filter cannot select a tested
  field, otherwise these steps are dropped or every run is undefined (`TestedField`); C34 by the winner among the roles of a state when
  slices may follow `..` (`SliceAny`: the exact output; `SliceOne`: it is the answer
  when slice elements are not nested) and by a run of the filter phase with at most one
  open element (`DescBuild`, `DescFilter`) for a filter after `..`; C35 by a lower bound on what an automaton with 256 classes can
  distinguish (`Lost`).
* C36 - `Report`: the result of a thread for every query and every start state
  without an index range (and, in an array, without a role in it; the role of a
  filter is allowed if each brace that ends an element is followed by another token);
  counterexamples for the three exceptions: outputs in arrays, slices, filters.
* C37 - simulation of thread 0 by the serial engine, also for undefined behaviour.
* C38 - scanner and parser against a printer with arbitrary blanks and redundant
  parentheses; `and`/`or` have one precedence, remainders are misgrouped, names in
  brackets and index lists are dropped.
* C39 - the context that is released is never fully set; a run ends well exactly if
  that pointer happens to be NULL.
* C40 - compilation is total for every query with a step other than `[n]`.
* C41 - every loop with a counter has a measure that decreases: bytes left (tokens,
  loads, cuts), tuple links that go forward (`fwd`, an invariant of the threads),
  states left (`Ends`).
* C42 - simulation between the runs of two automata on any token sequence: equal
  stacks, and the state of the smaller query's automaton is matched by the other's;
  for documents with filters from C01. False for index steps (dropped) and for
  slices after `..` in the larger query.
* C43 - every token, tuple, unit and filter entry is a piece of the load it comes
  from (`Verbatim`, `VerbPar`); texts joined at a cut are pieces because chunks are
  adjacent. False for parallel runs of a file with a leading blank: the partitioner
  copies one byte twice.
* C44 - `Records`: the tokens of a file are those of its records one after the other,
  each record leaves the automaton and the tables of the filter stage as it found
  them, so that the runs of C03 can be chained by induction over the records. On one core
  the parallel entry point gives the same (`RecPar`).
* C45 - `Noise`: two runs over different memory keep contexts that agree except for
  the flag. For parallel runs a consequence of C23, whose statement holds for every
  memory. False with a constraint table (the name of its array entry is never
  written) and for parallel runs of several loads (the flag decides whether answers
  are output again).
* C46 - `Pipe`: the meaning of a query composes over steps without `..` (`Compose`),
  and what C03 assumes of the document holds for every value of it, so that C03
  applies to all three runs. False for `..` in the first part: its answers may lie
  within each other.
* C47 - `Keep`: the meaning of a query without `.*` and `..` commutes with dropping
  the members it does not name, also inside of filters; C03 applies to both files.
  False in layouts that the tokenizer misreads.
* C48 - `Cells` models the containers as they are in memory (buffers with old
  contents, counters from -1, `strcopy` byte by byte); `CellsProof` proves that they
  refine the lists on which the other model files work, with the same undefined
  behaviour at the same limits. `CellEngineProof` and `CellFilterProof` carry this
  through every step of the serial engine and of the filtering stage, so that whole
  runs on arrays are those on lists (`C48_engine`, `C48_filter`, `C48_query`,
  `C48_run`; `C03_arrays` is C03 for a run on arrays with any old contents).
  Props_Arrays.v has the same for C16, C43, C44 and C45: `C45_arrays` is for every processor, every stream and any two
  contents of the memory, undefined runs included.
* C49 - `CellTab` models `constraint.h` on arrays; `CellTabProof` gives the content of
  the table after any calls as a list of keys with their states. At most 1000 keys of
  at most 98 bytes, states below 100. False in general: an entry for an array never
  gets a name, so that it answers for a key with the old bytes of its buffer.
  `CellTrain` does the same for whole training runs (`C49_training`); `C25_arrays` is
  C25 for them.

Recurring hypotheses: `good_doc` (well-formed, in a layout the lexer reads
exactly, no leading blank, one load), `limits` (depth 100, outputs and texts within
the fixed arrays), `supported` (slices and filters before any descendant step,
no filter at the end, no steps after a filter that select a field it tests,
`[0:0]` excluded), `names_fit` (at most 253 names or no wildcard),
`predicates_fit` (filter expressions within their arrays), `tame` (see C20).

## 4. Trusted base

* Coq 8.16.1 kernel (and its VM for witnesses computed with `vm_compute`).
* `Print Assumptions` reports "Closed under the global context" for every theorem
  listed in `MANIFEST.json`: no axioms are used, also none of the standard library.
* The reading of the C sources recorded in the comments of the model files.
* Uninitialised memory that the code reads and compares is a parameter (`junk`,
  `pjunk`): theorems hold for every content. Where the code follows an
  uninitialised index or pointer the outcome is `UB UninitRead`.
* `flex` is modelled by longest match in the order of the rules, `bison` by the
  grammar with its precedence declarations.
* Threads share no writable data (each has its own worker), so that their steps
  are modelled on private states.
* Not modelled: `malloc` failure, integer overflow of sizes above 2 GB, `printf`,
  the unused XPath grammar (`parser.y`, `scanner.l`), `equivalence_class.cpp`,
  `ecset_converter.cpp`, the parts of the regular expression library that
  `dfa_builder.cpp` never uses (alternatives, references, nested lists), the general
  interface `dragontooth.h`, `buildJSONQueryDFAMultiple*` (they return NULL), printing
  of syntax trees, reading of files from disk (a file is its bytes).

## 5. Testing the theorems

`seeded/LOG.jsonl` records edits of the model that imitate bugs, the theorems that
fail for each, and theorems that were tightened because they did not. Each edit is
made in a copy; proofs that no longer check are replaced by `Admitted`, and the
theorems of `Props_*.v` that then depend on an admitted lemma count as failed.
