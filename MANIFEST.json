{
 "claims": [
  {
   "property": "C01",
   "status": "partial",
   "theorems": [
    "C01_partial",
    "C01_refuted"
   ],
   "note": "Proved for documents in layouts where the lexer is exact and within buffer limits; false in general (witness: {\"a\":1} gives 1})."
  },
  {
   "property": "C02",
   "status": "partial",
   "theorems": [
    "C02_partial",
    "C02_refuted"
   ],
   "note": "Slices before any descendant step and not [0:0]; counterexample for slices after .. (see C34_partial and C34_coded for those)."
  },
  {
   "property": "C03",
   "status": "partial",
   "theorems": [
    "C03_arrays",
    "C03_partial",
    "C03_refuted"
   ],
   "note": "Supported queries; counterexample for a filter after .. . C03_arrays: the same run on the C arrays, whatever they held before."
  },
  {
   "property": "C04",
   "status": "partial",
   "theorems": [
    "C04_partial",
    "C04_query_partial"
   ],
   "note": "Any list of path expressions with at most 253 names or without wildcards; kinds of match for supported queries."
  },
  {
   "property": "C05",
   "status": "proved",
   "theorems": [
    "C05_unknown_key"
   ],
   "note": "Every compiled query, every state, every key."
  },
  {
   "property": "C06",
   "status": "proved",
   "theorems": [
    "C06_lossless"
   ],
   "note": "Every sequence of rows."
  },
  {
   "property": "C07",
   "status": "partial",
   "theorems": [
    "C07_partial",
    "C07_refuted"
   ],
   "note": "Documents in layouts where the lexer is exact; counterexample without a blank after a colon."
  },
  {
   "property": "C08",
   "status": "partial",
   "theorems": [
    "C08_partial",
    "C08_open",
    "C08_cases",
    "C08_refuted"
   ],
   "note": "All bodies up to the buffer size; longer ones write past the buffer, which is the counterexample."
  },
  {
   "property": "C09",
   "status": "partial",
   "theorems": [
    "C09_partial",
    "C09_refuted"
   ],
   "note": "Layouts where the lexer is exact; a leading minus is dropped, a closing brace or line break is added."
  },
  {
   "property": "C10",
   "status": "partial",
   "theorems": [
    "C10_partial",
    "C10_refuted"
   ],
   "note": "Supported queries and good documents; a line break after a number changes the output."
  },
  {
   "property": "C11",
   "status": "partial",
   "theorems": [
    "C11_partial",
    "C11_refuted"
   ],
   "note": "Every query that compiles; counterexample with leading blanks."
  },
  {
   "property": "C12",
   "status": "partial",
   "theorems": [
    "C12_partial",
    "C12_refuted"
   ],
   "note": "Every query that compiles; counterexample with leading blanks."
  },
  {
   "property": "C13",
   "status": "partial",
   "theorems": [
    "C13_partial",
    "C13_next_partial",
    "C13_refuted"
   ],
   "note": "Every query that compiles, documents within the stack depth; counterexample beyond it."
  },
  {
   "property": "C14",
   "status": "partial",
   "theorems": [
    "C14_partial",
    "C14_refuted"
   ],
   "note": "Depth up to the stack capacity of 100; counterexamples beyond it."
  },
  {
   "property": "C15",
   "status": "partial",
   "theorems": [
    "C15_partial",
    "C15_ended_partial",
    "C15_refuted"
   ],
   "note": "Cuts that do not separate a key from its colon: C15_partial (what is delivered is an initial part of the answers), C15_ended_partial (every selected value that ended before the cut is delivered; queries without filters). Counterexample for a cut before a colon."
  },
  {
   "property": "C16",
   "status": "partial",
   "theorems": [
    "C16_arrays",
    "C16_partial",
    "C16_tokens",
    "C16_small",
    "C16_run",
    "C16_refuted",
    "C16_refuted_filter",
    "C16_refuted_lexer"
   ],
   "note": "Any bytes: C16_tokens (the lexer is safe if no word directly follows a string and no text is longer than its buffers); C16_partial (matching is safe, beyond buffer sizes, if the text has no leading blank and no bracket closes a brace); C16_small and C16_run (texts that fit into the buffers: matching, and whole runs of queries without filters, end well). The conditions are necessary: C16_refuted_lexer, C16_refuted, C16_refuted_filter (a stray brace makes the filter read below its stack). C16_arrays: the runs of C16_run on the C arrays, whatever they held before."
  },
  {
   "property": "C17",
   "status": "partial",
   "theorems": [
    "C17_partial",
    "C17_refuted_key",
    "C17_refuted"
   ],
   "note": "Safe up to the stated sizes; longer keys always overflow."
  },
  {
   "property": "C18",
   "status": "partial",
   "theorems": [
    "C18_partial",
    "C18_sound",
    "C18_limits",
    "C18_whole",
    "C18_refuted"
   ],
   "note": "Files where every search for a cut point stays inside the extension buffer; C18_limits: the same for the entry point with its constants; C18_whole: files of at most 250000000 bytes are loaded by one call; C18_sound covers every file on which loading succeeds; otherwise the buffer is overrun (counterexample for all sizes)."
  },
  {
   "property": "C19",
   "status": "partial",
   "theorems": [
    "C19_partial",
    "C19_sound",
    "C19_refuted",
    "C19_refuted_blank",
    "C19_file_refuted"
   ],
   "note": "Streams without leading blanks and with a cut point behind every search; counterexamples: a read past the end, a leading blank, and partitionFile, which writes past its arrays."
  },
  {
   "property": "C20",
   "status": "partial",
   "theorems": [
    "C20_partial",
    "C20_refuted"
   ],
   "note": "Documents none of whose strings and bare values look like a cut point (tame); counterexample: a string that ends in a comma."
  },
  {
   "property": "C21",
   "status": "partial",
   "theorems": [
    "C21_partial",
    "C21_refuted"
   ],
   "note": "Pieces of tame documents with no selected container across a cut; counterexample for such a container."
  },
  {
   "property": "C22",
   "status": "partial",
   "theorems": [
    "C22_two_loads",
    "C22_refuted",
    "C22_refuted_twice"
   ],
   "note": "False of the code: the second load reads a released automaton (C22_two_loads), and without that every load emits all earlier answers again."
  },
  {
   "property": "C23",
   "status": "partial",
   "theorems": [
    "C23_refuted",
    "C23_refuted_lost",
    "C23_refuted_slice",
    "C23_refuted_cores",
    "C23_refuted_counts",
    "C23_refuted_carried",
    "C23_refuted_undefined",
    "C23_too_many_states",
    "C23_refuted_states",
    "C23_too_many_chunks",
    "C23_refuted_nodes",
    "C23_partial",
    "C23_slices",
    "C23_names"
   ],
   "note": "C23_partial: for every supported query (names, wildcards, [*], slices, filters, descendant steps), one load, up to 100 chunks, no selected object or array, no array whose elements are selected and no array with a slice lying on both sides of a cut, and arrays with a filter crossing cuts only if they start in the first chunk, the parallel run does what the serial run does, and returns the answer of the query under the conditions of C03 (worker threads with all start states, lookahead and shadow stacks, and the merging phase are all modelled). Missing: several loads. The full claim is refuted for cuts inside of such arrays (C23_refuted with a wrong text, _lost, _slice, _cores, _counts, _carried, _undefined) and beyond the sizes of the thread tables: C23_too_many_states and C23_too_many_chunks (every such run writes outside of a table), C23_refuted_states, C23_refuted_nodes."
  },
  {
   "property": "C24",
   "status": "proved",
   "theorems": [
    "C24",
    "C24_same",
    "C24_undefined",
    "C24_ends",
    "C24_run",
    "C24_run_possible"
   ],
   "note": "Every schedule of the threads, including schedules in which a thread hits undefined behaviour."
  },
  {
   "property": "C25",
   "status": "partial",
   "theorems": [
    "C25_arrays",
    "C25_partial",
    "C25_documents",
    "C25_slices",
    "C25_refuted",
    "C25_refuted_name"
   ],
   "note": "Every text: the table holds the states met before each token, plus what a token name that was never set can match; exact for queries without slices. C25_arrays: the same run on the C arrays, whatever they held before, for keys that are not among the old names. Counterexamples: a slice adds state 0; the unset name of the array entry matches a key."
  },
  {
   "property": "C26",
   "status": "partial",
   "theorems": [
    "C26_slices",
    "C26_refuted",
    "C26_refuted_text",
    "C26_partial",
    "C26_documents"
   ],
   "note": "Proved for the runs of C23_partial (slices and filters included) with a table from any training text that shows each of its keys and arrays in all states in which the document shows them; C26_documents and C26_slices: the same for training documents, queries without and with slices. Missing: keys of more than 98 bytes, keys equal to the unset name of array entries. False otherwise: a mispredicted chunk is re-read with an indeterminate stack, or reports text that is no value of the document; two counterexamples."
  },
  {
   "property": "C27",
   "status": "partial",
   "theorems": [
    "C27_partial",
    "C27_refuted"
   ],
   "note": "Expressions that have a meaning; counterexample comparing a string with a number."
  },
  {
   "property": "C28",
   "status": "partial",
   "theorems": [
    "C28_partial",
    "C28_zero",
    "C28_refuted"
   ],
   "note": "Equality and existence tests; an absent field counts as 0 in order comparisons, which is the counterexample."
  },
  {
   "property": "C29",
   "status": "proved",
   "theorems": [
    "C29_pieces"
   ],
   "note": "Every tuple list, every cut, every filter state."
  },
  {
   "property": "C30",
   "status": "partial",
   "theorems": [
    "C30_refuted",
    "C30_ignored",
    "C30_run"
   ],
   "note": "False of the code: the index is dropped by the compiler (C30_ignored), so for every supported query and document the output is that of the query without the index step (C30_run)."
  },
  {
   "property": "C31",
   "status": "partial",
   "theorems": [
    "C31_partial",
    "C31_refuted"
   ],
   "note": "Holds unless the slice is [0:0], where it fails."
  },
  {
   "property": "C32",
   "status": "partial",
   "theorems": [
    "C32_refuted",
    "C32_coded",
    "C32_ignored",
    "C32_partial"
   ],
   "note": "False of the code (counterexample). C32_coded gives the exact output of path queries that end in a filter: all elements and all fields the expression mentions; C32_ignored: the condition has no effect; C32_partial: the output is the answer exactly if every element satisfies the expression and has none of the mentioned fields."
  },
  {
   "property": "C33",
   "status": "partial",
   "theorems": [
    "C33_partial",
    "C33_dropped",
    "C33_undefined",
    "C33_refuted"
   ],
   "note": "Steps after a filter that cannot select a tested field give the elements' values (C33_partial). If they name a tested field they are dropped (C33_dropped); if they select one in another way every run is undefined (C33_undefined). Full statement refuted."
  },
  {
   "property": "C34",
   "status": "partial",
   "theorems": [
    "C34_partial",
    "C34_filters",
    "C34_coded",
    "C34_refuted"
   ],
   "note": "One slice or one filter after .. where no element it could apply to lies within another one (C34_partial, C34_filters); C34_coded gives the exact output for any number of slices on every document. Missing: several filters after .., nested elements (counterexamples)."
  },
  {
   "property": "C35",
   "status": "partial",
   "theorems": [
    "C35_partial",
    "C35_refuted"
   ],
   "note": "Any number of names without wildcards; counterexample with 255 names and a descendant step."
  },
  {
   "property": "C36",
   "status": "partial",
   "theorems": [
    "C36_refuted",
    "C36_refuted_slice",
    "C36_refuted_filter",
    "C36_partial",
    "C36_filters",
    "C36_path"
   ],
   "note": "Every query; every start state without an index range (without slices: every state, C36_path), except states with a role for the elements of the array when the chunk starts directly in an array; there, states of filters are covered if each brace that ends an element is followed by another token (C36_filters); sizes within the tables of a thread. The full statement is refuted for the exceptions: output states in arrays (the look-ahead overwrites the token), states of slices (C36_refuted_slice), states of filters in arrays with such a brace at the end of the chunk (C36_refuted_filter)."
  },
  {
   "property": "C37",
   "status": "partial",
   "theorems": [
    "C37_partial",
    "C37_document",
    "C37_refuted",
    "C37_refuted_deep"
   ],
   "note": "Every query; files in one load that do not start with a blank and whose tokens are well nested to at most 100 levels. Counterexamples: leading blanks, more levels."
  },
  {
   "property": "C38",
   "status": "partial",
   "theorems": [
    "C38_partial",
    "C38_answers",
    "C38_refuted",
    "C38_refuted_remainder",
    "C38_refuted_ignored",
    "C38_refuted_answers"
   ],
   "note": "Every query of the grammar with arbitrary blanks, where an && after an || and every remainder are in parentheses; otherwise they are grouped differently (counterexamples). Names in brackets and index lists are dropped, unknown characters skipped."
  },
  {
   "property": "C39",
   "status": "partial",
   "theorems": [
    "C39_partial",
    "C39_always",
    "C39_refuted"
   ],
   "note": "For every supported query: the run releases only what it allocated exactly if the pointer that was never set happens to be NULL; C39_always: for every file, a run that ends well for NULL is undefined otherwise."
  },
  {
   "property": "C40",
   "status": "partial",
   "theorems": [
    "C40_partial",
    "C40_refuted"
   ],
   "note": "Every query with a step other than [n] compiles to well-formed tables; counterexamples otherwise."
  },
  {
   "property": "C41",
   "status": "proved",
   "theorems": [
    "C41",
    "C41_token",
    "C41_load"
   ],
   "note": "Every file, every processor, every number of threads; compilation for queries whose names an int can count. A run that reaches undefined behaviour counts as ended. C41_token and C41_load are the measures."
  },
  {
   "property": "C42",
   "status": "partial",
   "theorems": [
    "C42_partial",
    "C42_steps",
    "C42_documents",
    "C42_refuted",
    "C42_refuted_slice"
   ],
   "note": "Any file (also not JSON, several loads) if q has names, wildcards, descendant steps and slices and q' no conditions (C42_partial, C42_steps); documents with filters and slices in both queries (C42_documents). False for index steps, which the compiler drops, and for a slice after .. in the larger query (C42_refuted, C42_refuted_slice)."
  },
  {
   "property": "C43",
   "status": "partial",
   "theorems": [
    "C43_arrays",
    "C43_partial",
    "C43_parallel_partial",
    "C43_refuted"
   ],
   "note": "Serial runs: any file, any automaton, any loads. Parallel runs: any file without a leading blank and without NUL, any table and number of threads. C43_refuted: with one leading blank the partitioner copies a byte twice and the output shows a string with a letter too many. C43_arrays: the same for the C arrays, files of one load."
  },
  {
   "property": "C44",
   "status": "partial",
   "theorems": [
    "C44_arrays",
    "C44_partial",
    "C44_refuted",
    "C44_one_core",
    "C44_refuted_cores"
   ],
   "note": "Any number of records, supported queries, under the conditions of C03 for each record; one load, not starting with a blank. C44_one_core: the parallel entry point on one core, for every content of unwritten memory. C44_refuted: two records in a layout that the tokenizer misreads. C44_refuted_cores: a slice on two cores loses a value. C44_arrays: the same run on the C arrays, whatever they held before."
  },
  {
   "property": "C45",
   "status": "partial",
   "theorems": [
    "C45_arrays",
    "C45_partial",
    "C45_parallel_partial",
    "C45_refuted",
    "C45_refuted_undefined",
    "C45_refuted_loads"
   ],
   "note": "Serial runs: any automaton, any file, any number of loads (C45_partial). Parallel runs without a table: under the conditions of C23_partial (C45_parallel_partial). False with a table, where the unset name of an array entry changes the answer (C45_refuted) or makes the run undefined (C45_refuted_undefined), and for parallel runs of several loads (C45_refuted_loads). C45_arrays: serial runs on the C arrays with any two old contents give the same texts or are undefined in the same way."
  },
  {
   "property": "C46",
   "status": "partial",
   "theorems": [
    "C46_partial",
    "C46_refuted"
   ],
   "note": "Supported queries, no descendant step in the first part, documents and sizes as in C03. C46_refuted: a descendant step in the first part finds answers within each other, so that the second stage finds values twice."
  },
  {
   "property": "C47",
   "status": "partial",
   "theorems": [
    "C47_partial",
    "C47_plain",
    "C47_one_core",
    "C47_refuted"
   ],
   "note": "Supported queries without .* and .., under the conditions of C03 for both documents. C47_plain: identical answers when they are strings or bare words. C47_one_core: the same for the parallel entry point on one core. C47_refuted: a new field with a line break before its colon hides the answer."
  },
  {
   "property": "C48",
   "status": "proved",
   "theorems": [
    "C48_output",
    "C48_limit",
    "C48_tuples",
    "C48_stack",
    "C48_lists",
    "C48_filter",
    "C48_filter_tuples",
    "C48_engine",
    "C48_query",
    "C48_run"
   ],
   "note": "Output, tuple lists and stacks as arrays with arbitrary old contents, any sequence of calls within the limits; C48_limit: beyond them the store is outside of the array; C48_lists: each call agrees with the list operation used by the rest of the model. C48_engine, C48_filter, C48_query, C48_run: whole runs of the serial engine and of the filtering stage on these arrays agree with those on lists."
  },
  {
   "property": "C49",
   "status": "partial",
   "theorems": [
    "C49_partial",
    "C49_lists",
    "C49_refuted",
    "C49_refuted_full",
    "C49_training"
   ],
   "note": "At most 1000 keys of at most 98 bytes, states below 100, keys that are not among the old names in the memory. C49_lists: without any limit the array model agrees with the list model of Constraint.v; C49_training: so do whole training runs. C49_refuted: the entry for arrays never gets a name and answers for whatever name the memory held."
  }
 ]
}