{"id": "C01", "title": "Path queries return exactly the selected values", "statement": "For a JSONPath made of .name, .*, ..name, ..* and [*] steps, serialRun followed by getOutputElement over getOutputSize entries yields exactly the verbatim source text of the values whose path from the root matches the query, each once, and nothing else.", "quantifier": "every query of that form, every well-formed JSON document, every spacing of the document", "why_tests_cant": "queries and documents are unbounded recursive objects; a test only samples pairs of them", "anchors": ["JSONQuery/path_processor.h: serialRun", "JSONQuery/streaming_automaton.c: executeAutomaton", "DFABuilder/src/dfa_builder.cpp: dfa_build"]}
{"id": "C02", "title": "Slice queries return exactly the elements in range", "statement": "For a query that also uses [lo:hi], [lo:] and [:hi] steps, an array element is followed only when its zero-based index i satisfies lo <= i < hi, at every nesting level, and the outputs of serialRun are exactly the values selected that way.", "quantifier": "every query of .name, .*, [*] and slice steps, every well-formed document", "why_tests_cant": "index counters interact with nesting depth and with the kind of every earlier sibling; the combinations are unbounded", "anchors": ["JSONQuery/streaming_automaton.c: ary_s, key, elt_pmt, elt_obj_e, elt_ary_e, getMatchedType", "DFABuilder/src/dfa_builder.cpp: StackContext"]}
{"id": "C03", "title": "Filter queries keep a candidate exactly when every enclosing filter holds", "statement": "For a query with [?(expr)] steps followed by further steps, serialRun outputs a candidate value exactly when each filtered array element on its path is an object for which expr is true when evaluated on that object's own fields.", "quantifier": "every query with any number of nested filters, every well-formed document, every order of the fields inside each object", "why_tests_cant": "filters are decided after their candidates were buffered, so correctness depends on arbitrary interleavings of candidates, conditions and nested elements", "anchors": ["JSONQuery/predicate.c: generateFinalOutput", "JSONPathParser/jsonpath_evaluator.h: evaluateExpression"]}
{"id": "C04", "title": "The compiled automaton recognises exactly the query's paths", "statement": "Following the compiled automaton from its start state along the keys and array steps of a path ends in a state reporting a match exactly when the path matches one of the query's path expressions, and the reported expression is the last one that matches.", "quantifier": "every list of path expressions, every finite path", "why_tests_cant": "paths and queries are unbounded; the construction goes through position sets, subset construction, a product and a compressed table", "anchors": ["DFABuilder/src/dfa_builder.cpp: create_dfa, dfa_build", "DFABuilder/src/Lexer/regex_model.cpp: CreateDFA", "DFABuilder/src/Lexer/dfa_mixer.cpp: Combine"]}
{"id": "C05", "title": "Unknown keys behave like the wildcard class", "statement": "dfaNextStateByStr on a key that the query never names, or that the query names but that cannot be used in the current state, leads to the state that a wildcard alone would reach.", "quantifier": "every compiled query, every state, every key", "why_tests_cant": "quantifies over all byte strings used as keys and all automata", "anchors": ["DFABuilder/include/dfa_builder.h: dfaNextStateByStr", "DFABuilder/src/dfa_builder.cpp: create_dfa"]}
{"id": "C06", "title": "Compressed transition table is lossless", "statement": "After any sequence of rows has been added to the compressed automaton, looking up any state and input returns exactly the entry of the row that was added for that state.", "quantifier": "every sequence of rows, every alphabet size, every state and input", "why_tests_cant": "the packing shares cells between states; a wrong overlap shows up only for particular row combinations", "anchors": ["DFABuilder/src/Lexer/dfa_compressed.cpp: addEdge, createNewArea, createLinkArea, nextState"]}
{"id": "C07", "title": "Tokens of a document are recovered exactly", "statement": "Calling nextToken until END on a document returns its braces, brackets, commas, keys and primitive values in order, with the exact text of each key and each value.", "quantifier": "every well-formed JSON document and every placement of whitespace", "why_tests_cant": "documents are unbounded and the lexer keeps pointers between calls, so a mistake can depend on any earlier token", "anchors": ["JSONQuery/lexing.c: nextToken", "JSONQuery/lexing.h: initLexer"]}
{"id": "C08", "title": "String ends are found by backslash parity", "statement": "A double quote ends a string exactly when it is preceded by an even number of consecutive backslashes, so any escaped text stays inside one token and is reported unchanged.", "quantifier": "every string body, of any length and with any run of backslashes", "why_tests_cant": "there are infinitely many escape sequences; tests try a handful", "anchors": ["JSONQuery/lexing.c: nextToken"]}
{"id": "C09", "title": "Bare primitives are reported verbatim", "statement": "A number, true, false or null occurring as a value is reported with exactly its own characters: no sign dropped and no following delimiter or line break added.", "quantifier": "every number or literal, every delimiter that may follow it", "why_tests_cant": "depends on the characters around the value and on how the previous token was scanned", "anchors": ["JSONQuery/lexing.c: nextToken (state 2)"]}
{"id": "C10", "title": "Whitespace does not change the answer", "statement": "Two documents that differ only in insignificant whitespace give the same sequence of primitive outputs for the same query.", "quantifier": "every document, every pair of whitespace layouts, every query", "why_tests_cant": "relates two runs over unboundedly many layouts", "anchors": ["JSONQuery/lexing.c: nextToken", "JSONQuery/streaming_automaton.c: executeAutomaton"]}
{"id": "C11", "title": "Output text is a verbatim value of the input", "statement": "Every object or array in the output is byte for byte the text of one value of the input document, from its opening to its closing bracket.", "quantifier": "every document, including any leading whitespace, every query", "why_tests_cant": "offsets are computed far away from where they are used; only particular layouts expose a shift", "anchors": ["JSONQuery/utility.c: substring, ltrim", "JSONQuery/streaming_automaton.c: executeAutomaton"]}
{"id": "C12", "title": "Outputs come in document order of completion", "statement": "Output entries appear in the order in which the selected values end in the document; a value nested in another selected value comes before it.", "quantifier": "every query and every document", "why_tests_cant": "order is a property of the whole output sequence for unbounded documents", "anchors": ["JSONQuery/streaming_automaton.c: executeAutomaton", "JSONQuery/predicate.c: generateFinalOutput"]}
{"id": "C13", "title": "The automaton returns to its initial configuration", "statement": "After a complete document has been processed both stacks are empty again and the current query state, index counter and match marker are those of a freshly initialised automaton, so the next document is processed as if it were the first.", "quantifier": "every document, every query, every number of documents processed in sequence", "why_tests_cant": "needs an invariant over every prefix of every document", "anchors": ["JSONQuery/streaming_automaton.c: executeAutomaton", "JSONQuery/stack.h"]}
{"id": "C14", "title": "Deep documents are handled or limited safely", "statement": "Processing a document never loses track of nesting: the answer is right whatever the nesting depth, or at least for every depth up to the stack capacity.", "quantifier": "every nesting depth", "why_tests_cant": "a stack that silently drops a push is only visible beyond its capacity", "anchors": ["JSONQuery/stack.h: syntaxStackPush, queryStackPush", "JSONQuery/stack.h: MAX_STACK"]}
{"id": "C15", "title": "Truncated documents are processed safely", "statement": "Running the automaton on any prefix of a document never reads or writes outside its buffers and outputs only values that the full document would also output, in the same order.", "quantifier": "every document, every truncation point between two tokens", "why_tests_cant": "quantifies over every crash point of the input stream", "anchors": ["JSONQuery/streaming_automaton.c: executeAutomaton"]}
{"id": "C16", "title": "Malformed input cannot corrupt memory", "statement": "Processing a byte sequence that is not well-formed JSON never reads or writes outside allocated buffers.", "quantifier": "every byte sequence", "why_tests_cant": "the bad sequences are adversarial and unbounded in number", "anchors": ["JSONQuery/streaming_automaton.c: executeAutomaton", "JSONQuery/stack.h: queryStackPop"]}
{"id": "C17", "title": "Oversized keys and values are handled safely", "statement": "Keys and selected values of any length are returned without writing past a fixed-size buffer.", "quantifier": "every length of key and of selected value", "why_tests_cant": "only lengths beyond undocumented limits go wrong", "anchors": ["JSONQuery/tuple_list.h: Tuple, addTuple", "JSONQuery/lexing.h: MAX_SIZE_PRIMITIVE", "JSONQuery/utility.c: strcopy"]}
{"id": "C18", "title": "Bounded loading covers the file exactly once", "statement": "Calling loadBoundedInputStream repeatedly on an open file returns pieces whose concatenation is the file, and reaches the end of the file after finitely many calls.", "quantifier": "every file content, every memory budget and extension limit", "why_tests_cant": "piece boundaries depend on the content at the budget offset", "anchors": ["JSONQuery/path_processor.h: loadBoundedInputStream"]}
{"id": "C19", "title": "Partitioning a stream loses and duplicates nothing", "statement": "partitionInputStream splits a stream into at most the requested number of chunks, whose concatenation is the stream, each chunk after the first starting at a double quote that follows a comma, an opening brace or an opening bracket.", "quantifier": "every stream, every requested number of chunks", "why_tests_cant": "cut points depend on content; off-by-one losses appear only for some lengths", "anchors": ["JSONQuery/path_processor.h: partitionInputStream", "JSONQuery/file_partition.c: partitionFile"]}
{"id": "C20", "title": "Cut points never fall inside a token", "statement": "A boundary chosen by loadBoundedInputStream, partitionInputStream or partitionFile lies between two tokens of the document, so that lexing the pieces one after the other gives the tokens of the whole.", "quantifier": "every document and every cut position the loaders may choose", "why_tests_cant": "needs a characterisation of all places where a quote can occur", "anchors": ["JSONQuery/path_processor.h: loadBoundedInputStream, partitionInputStream", "JSONQuery/file_partition.c: partitionFile", "JSONQuery/lexing.c: nextToken"]}
{"id": "C21", "title": "Processing piece by piece equals processing the whole", "statement": "Feeding the consecutive pieces of a document to the streaming automaton gives the same outputs as feeding the whole document at once.", "quantifier": "every document, every way of cutting it between tokens, every query", "why_tests_cant": "quantifies over all cut positions and the automaton state at each of them", "anchors": ["JSONQuery/path_processor.h: serialPartialRun, serialRun", "JSONQuery/streaming_automaton.c: executeAutomaton"]}
{"id": "C22", "title": "Files larger than the memory budget give each answer once", "statement": "serialRun on a file that needs several loads outputs every selected value exactly once and uses no released memory.", "quantifier": "every file size and every number of loads", "why_tests_cant": "requires files of hundreds of megabytes and inspection of object lifetimes", "anchors": ["JSONQuery/path_processor.h: serialPartialRun", "JSONQuery/streaming_automaton.c: destroyStreamingAutomaton"]}
{"id": "C23", "title": "Parallel runs give the serial answer", "statement": "parallelRun on a stream returns the same sequence of outputs as serialRun, for any number of cores.", "quantifier": "every document, every query, every number of chunks and every position of the chunk boundaries", "why_tests_cant": "the merge step depends on where the boundaries fall relative to the nesting and on speculation over all automaton states", "anchors": ["JSONQuery/path_processor.h: parallelRun", "JSONQuery/worker_automaton.c: executeWorkerAutomaton", "JSONQuery/parallel_automata_execution.h: combine"]}
{"id": "C24", "title": "Thread scheduling does not influence the result", "statement": "The worker results handed to the merge step, and hence the output of parallelRun, are the same for every interleaving of the worker threads.", "quantifier": "every schedule of any number of workers", "why_tests_cant": "schedules cannot be enumerated by running the program", "anchors": ["JSONQuery/parallel_automata_execution.h: main_thread, executeParallelAutomata"]}
{"id": "C25", "title": "Collected constraints are exactly the observed transitions", "statement": "After a training run the constraint table lists, for every key seen (and for arrays), each query state in which it was met, no state twice, and no state in which it was never met; looking up an unseen key finds nothing.", "quantifier": "every token history", "why_tests_cant": "histories are unbounded; duplicates appear only for particular repetitions", "anchors": ["JSONQuery/constraint.h: addConstraintInfo, updateStateInfo, getConstraintInfo"]}
{"id": "C26", "title": "Constraint pruning never changes the answer", "statement": "parallelRunOpt returns the same outputs as parallelRun whichever constraint table it is given, in particular one collected from other data.", "quantifier": "every constraint table, every document, every number of cores", "why_tests_cant": "mispredictions depend on the relation between training data and the document", "anchors": ["JSONQuery/worker_automaton.c: pruneQueryPaths", "JSONQuery/parallel_automata_execution.h: combine"]}
{"id": "C27", "title": "Filter expressions are evaluated by their usual meaning", "statement": "evaluateExpression computes the value of a filter expression from the field values of the element: comparisons on numbers, equality on strings, and, or, not by truth value; a field that is absent makes an existence test false.", "quantifier": "every expression tree, every assignment of field values", "why_tests_cant": "expressions and assignments are unbounded", "anchors": ["JSONPathParser/jsonpath_evaluator.h: evaluateExpressionInner, computeBinaryOperator, stringToValue"]}
{"id": "C28", "title": "Comparisons on absent or non-numeric fields do not succeed", "statement": "A filter comparison such as @.price < 10 is not satisfied by an element that has no such field.", "quantifier": "every comparison operator, every element without the field", "why_tests_cant": "depends on the representation of missing values", "anchors": ["JSONPathParser/jsonpath_evaluator.h: findValueInTable, computeBinaryOperator"]}
{"id": "C29", "title": "Filtering is incremental", "statement": "Filtering the matches of two consecutive pieces one after the other gives the same output as filtering their concatenation, wherever the cut falls inside open filtered elements.", "quantifier": "every tuple sequence and every cut position", "why_tests_cant": "quantifies over all splits and all open-element configurations", "anchors": ["JSONQuery/predicate.c: generateFinalOutput", "JSONQuery/predicate.h"]}
{"id": "C30", "title": "An index step selects that element", "statement": "[n] selects the element with index n of an array and nothing else.", "quantifier": "every index, every query containing it, every document", "why_tests_cant": "a dropped step is visible only on suitable documents", "anchors": ["DFABuilder/src/dfa_builder.cpp: construct_dfa", "README.md"]}
{"id": "C31", "title": "An empty slice selects nothing", "statement": "[lo:hi] with lo >= hi selects no element.", "quantifier": "every pair of bounds, every document", "why_tests_cant": "one particular pair is used as an internal marker", "anchors": ["JSONQuery/streaming_automaton.c: ary_s, key, getMatchedType", "DFABuilder/src/dfa_builder.cpp: create_dfa"]}
{"id": "C32", "title": "A final filter step filters its elements", "statement": "A query that ends in [?(expr)] returns exactly the elements of the array for which expr holds, and no other value.", "quantifier": "every expression and document", "why_tests_cant": "needs the interplay of compilation, matching and filtering", "anchors": ["DFABuilder/src/dfa_builder.cpp: create_dfa", "JSONQuery/predicate.c"]}
{"id": "C33", "title": "Testing a field does not prevent returning it", "statement": "A field used in a filter can also be selected by the steps after the filter, as in $.a[?(@.b)].b or $.a[?(@.b)].*.", "quantifier": "every filter variable and every continuation of the query", "why_tests_cant": "depends on de-duplication of path expressions inside the compiler", "anchors": ["DFABuilder/src/dfa_builder.cpp: StackContext::create_dfa", "JSONQuery/predicate.c: initPredicateFilter"]}
{"id": "C34", "title": "Slices and filters compose with descendant steps", "statement": "A slice or a filter after a .. step is applied separately to every array it reaches, including arrays nested inside elements that are out of range or rejected.", "quantifier": "every document with nested matches", "why_tests_cant": "needs recursive documents in which a match occurs inside another match", "anchors": ["JSONQuery/streaming_automaton.c: ary_s, key", "JSONQuery/predicate.c: clearPredicateCondition"]}
{"id": "C35", "title": "Queries may name any number of fields", "statement": "The automaton is right for queries that mention arbitrarily many different field names.", "quantifier": "every number of distinct names in a query", "why_tests_cant": "needs queries with hundreds of names", "anchors": ["DFABuilder/src/Lexer/charset.cpp", "DFABuilder/src/dfa_builder.cpp: create_dfa"]}
{"id": "C36", "title": "A worker explores every start state faithfully", "statement": "The speculative results a worker reports for a possible start state of its chunk are exactly what the streaming automaton would produce if started in that state on that chunk.", "quantifier": "every chunk, every set of start states", "why_tests_cant": "the worker shares nodes between start states; sharing errors need particular convergences", "anchors": ["JSONQuery/worker_automaton.c: executeWorkerAutomaton", "JSONQuery/multi_stack.h"]}
{"id": "C37", "title": "A single-core parallel run equals the serial run", "statement": "parallelRun with one core returns the same outputs as serialRun on the same stream.", "quantifier": "every stream and every query", "why_tests_cant": "two different engines must agree on all inputs", "anchors": ["JSONQuery/worker_automaton.c: executeWorkerAutomaton", "JSONQuery/streaming_automaton.c: executeAutomaton"]}
{"id": "C38", "title": "A JSONPath string is understood as written", "statement": "The parsed form of a JSONPath string is the list of steps it spells, with the operators of filter expressions grouped by conventional precedence.", "quantifier": "every query string of the documented grammar", "why_tests_cant": "the grammar is recursive and resolved by precedence declarations and default conflict resolution", "anchors": ["JSONPathParser/parser_j.y", "JSONPathParser/scanner_j.l"]}
{"id": "C39", "title": "A serial run releases only what it allocated", "statement": "serialRun frees exactly the memory it obtained itself; it never frees or follows a pointer that was never stored.", "quantifier": "for every compiled query, every file and every content of uninitialised local variables", "why_tests_cant": "the content of uninitialised stack memory is usually zero in small test programs, so the wrong release does not show; only reasoning over every possible content settles it", "anchors": ["JSONQuery/path_processor.h:173-194", "JSONQuery/path_processor.h:227-243"]}
{"id": "C40", "title": "Every query compiles", "statement": "createPathProcessor returns a well-formed automaton (all tables of matching sizes, all entries valid states) for every parsed JSONPath query.", "quantifier": "for every query", "why_tests_cant": "queries form an infinite set and the compiler has shared mutable state between steps; tests only sample step combinations", "anchors": ["JSONQuery/path_processor.h:156-165", "DFABuilder/src/dfa_builder.cpp: buildJSONQueryDFAFromAST"]}
{"id": "C41", "title": "Every run ends", "statement": "createPathProcessor, serialRun, collectDataConstraints, parallelRun and parallelRunOpt never loop forever: each token and each load takes at least one byte of the file, a chunk's tuple links go forward, and the subset construction reaches a fixed point.", "quantifier": "for every file (any bytes, also text that is not JSON), every query, every number of threads and every size of the load buffers", "why_tests_cant": "a test can only wait; absence of an infinite loop on all byte strings needs a measure that decreases in every iteration", "anchors": ["JSONQuery/lexing.c:13-225 nextToken", "JSONQuery/file_partition.c loadBoundedFile", "JSONQuery/parallel_automata_execution.h merging loops", "JSONQuery/path_processor.h:227-243 serialRun"]}
{"id": "C42", "title": "A query that asks for more gets more", "statement": "If query q' selects every value that query q selects (for example because a name became a wildcard or a descendant step, a slice became [*], or a filter was removed), then serialRun with q gives a subsequence of what serialRun with q' gives on the same file.", "quantifier": "for every pair of such queries and every file", "why_tests_cant": "it relates two runs of two differently compiled automata over all files; tests compare outputs on a handful of documents", "anchors": ["JSONQuery/path_processor.h:227-243 serialRun", "JSONQuery/automata_execution.c", "DFABuilder/src/dfa_builder.cpp"]}
{"id": "C43", "title": "Nothing in the output is invented", "statement": "Every text that serialRun, parallelRun or parallelRunOpt puts into the output stands byte for byte, without a gap, somewhere in the file.", "quantifier": "for every file (any bytes, also text that is not JSON), every query, every number of threads, every constraint table and every size of the load buffers", "why_tests_cant": "outputs are put together from copies of chunks, texts joined across chunks and token buffers shared between lexer copies; a test only sees the cuts it happens to produce", "anchors": ["JSONQuery/path_processor.h:92-149 partitionInputStream", "JSONQuery/parallel_automata_execution.h:163-211, 339-346", "JSONQuery/worker_automaton.c", "JSONQuery/utility.c:10-57"]}
{"id": "C44", "title": "A file of several records gives the answers of each record", "statement": "If a file holds several JSON texts one after the other (for instance one per line), serialRun returns the answers of the query for the first text, then those for the second, and so on; no counter, stack entry, tested field or pending match of one record influences the next.", "quantifier": "for every number of records, every content and white space between them, every supported query with slices and filters", "why_tests_cant": "state that survives a record (counters, the value of a tested field, the start of a match) only shows on particular sequences of records; a test covers a few of unboundedly many", "anchors": ["JSONQuery/streaming_automaton.c:132-330 executeAutomaton", "JSONQuery/predicate.c:4-106 generateFinalOutput", "JSONQuery/path_processor.h:197-263 serialRun"]}
{"id": "C45", "title": "Uninitialised memory does not decide the answer", "statement": "serialRun, parallelRun and parallelRunOpt read fields that no code has initialised (the finish flag and the automaton pointer of the context, the state of a unit, the name of an array entry of the constraint table). What these happen to hold does not change the list of values returned.", "quantifier": "for every file, automaton, number of threads and every content of the unwritten memory", "why_tests_cant": "a test sees one content of the memory, on most machines zeros; the property compares all contents", "anchors": ["JSONQuery/path_processor.h:197-243 serialPartialRun, serialRun", "JSONQuery/path_processor.h:266-367 parallelRun, parallelRunOpt", "JSONQuery/constraint.h:36-138"]}
{"id": "C46", "title": "A query can be run in two stages", "statement": "Running the first steps of a query on a file, and the remaining steps on each object or array that this returns, gives the answers of the whole query, in the same order: the texts in the Output are usable as input of another run.", "quantifier": "for every document, every query and every way to split it before a step", "why_tests_cant": "relates three runs for all documents and all splits of all queries; the result of the first run has to be exact (start, end, layout) to be a file for the second", "anchors": ["JSONQuery/path_processor.h:197-243 serialRun", "JSONQuery/streaming_automaton.c:132-330 executeAutomaton", "JSONPathParser/jsonpath_evaluator.h"]}
{"id": "C47", "title": "Fields that the query does not name have no influence", "statement": "If two files hold the same JSON value up to layout and up to object members whose names do not occur in the query, then serialRun returns the same number of values for both, in the same order, equal up to layout and such members; values that are strings, numbers or literals are returned with the same text. So a producer may add fields to its records without changing what existing queries return.", "quantifier": "for every query without .* and .., every pair of documents that agree on the named members", "why_tests_cant": "relates runs on two documents that may differ in arbitrarily many members of arbitrary content at any depth", "anchors": ["JSONQuery/path_processor.h:197-243 serialRun", "JSONQuery/streaming_automaton.c:132-330 executeAutomaton", "DFABuilder/include/dfa.h dfaNextStateByStr"]}
{"id": "C48", "title": "What was stored is what is read", "statement": "Whatever the memory held before, after any sequence of addOutputElement and removeOutputElement calls getOutputSize is the number of texts that remain and getOutputElement(i) is the i-th of them; after any sequence of addTuple, addVirtualTuple and linkTuples calls getTuple and getNextTuple return the stored state, text or positions and link; after any pushes, pops and combinations the stacks return their top elements. This holds as long as texts have at most 998 bytes and the counts stay within MAX_OUTPUT and MAX_TUPLE_LIST; a call beyond that writes outside of the array. Pushes beyond MAX_STACK have no effect. Runs on these arrays are those on lists: matching leaves the same tuples, and generateFinalOutput leaves the same texts in the output, call after call, or both are undefined in the same way.", "quantifier": "for every content of the memory and every sequence of calls", "why_tests_cant": "old contents of reused buffers and call sequences are unbounded; the limits are too large to reach in a test", "anchors": ["JSONQuery/output.h:14-67", "JSONQuery/tuple_list.h:24-79", "JSONQuery/stack.h:27-155", "JSONQuery/utility.c:10-19 strcopy", "JSONQuery/streaming_automaton.c:30-330", "JSONQuery/predicate.h:40-95", "JSONQuery/predicate.c:4-106"]}
{"id": "C49", "title": "A training table returns what was recorded", "statement": "Whatever the memory of a ConstraintTable held before, after any sequence of addConstraintInfo calls (at most 1000 keys of at most 98 bytes, states below 100) updateStateInfo writes each state recorded for the given key exactly once into the given array and returns their number; for a key that was never recorded it returns -1 and writes nothing.", "quantifier": "for every content of the memory, every sequence of calls and every key", "why_tests_cant": "old memory contents and call sequences are unbounded; a key longer than its buffer or an array entry whose name was never written only misbehaves for some contents", "anchors": ["JSONQuery/constraint.h:24-138", "JSONQuery/utility.c:10-19 strcopy"]}
