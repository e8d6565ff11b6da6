# DESIGN — a Rocq (Coq 8.16.1) model of networktocode/diffsync

The properties are in `properties.jsonl`, the theorems proving them in `MANIFEST.json`, the model and
the proofs in `rocq/theories` (logical name `Verif`), attempts with wrong programs in `seeded/LOG.jsonl`.

## Shape of the development

Model files. Computable Gallina; every definition cites the lines of /repo it models; Python
exceptions are values.

| file | models |
|---|---|
| `Base.v` | insertion-ordered `dict`, exceptions, the state-and-exception monad, Python values, `==`, `str()`; utils.py:31-41 |
| `ModelDefs.v` | enum.py; `DiffSyncModel` classes and instances (`__init__.py:56-428`); the heap of mutable objects; adapters; the world; class checks (`:130-159`, `:466-483`) |
| `StoreDefs.v` | `BaseStore`, `LocalStore` (defaultdict of dicts of references), `RedisStore` (shared key/value server, glob scan), the store methods of `Adapter` (`__init__.py:647-792`) |
| `DiffDefs.v` | diff.py: `Diff`, `DiffElement` (trees, action, attribute diffs, len, summary, has_diffs, str, dict) |
| `DifferDefs.v` | helpers.py:36-281 `DiffSyncDiffer`; `Adapter.diff_from/diff_to` |
| `SyncerDefs.v` | helpers.py:284-473 `DiffSyncSyncer`; `Adapter.sync_from/sync_to` (`__init__.py:577-645`) |
| `AdapterDefs.v` | `Adapter.dict`, `load_from_dict`, `get_tree_traversal`; utils.py:59-96 |
| `TextDefs.v` | `Adapter.__init__`, `__str__`, `__repr__`, `str`; `DiffSyncModel.__str__`, `__repr__`, `str` |
| `LogDefs.v` | logging.py, log.py: where log records go |
| `ConnDefs.v` | `RedisStore.__init__`, `__str__`, `BaseStore.__init__` |
| `ConcDefs.v` | the store methods as sequences of Redis commands, for processes that share a server |
| `SyncConcDefs.v` | diff_from and sync_from as sequences of Redis commands |
| `ShareDefs.v` | `Adapter.__new__`, `__init__`; LocalStores as objects that several adapters may share |
| `LossDefs.v` | the same sequences of Redis commands when the client raises an exception for a command |

Specification files (`*Spec.v`): the vocabulary in which the properties are stated. They use the records of
the model (worlds, objects, diff elements) and elementary observations (look up a key, list the objects the
store returns) but none of the algorithms. `Spec` diff trees; `StoreSpec` registers as lists;
`RedisSpec` the server's contents as a list of quadruples, small steps of `add`; `DifferSpec` what a
faithful diff is (a relation, no recursion over the code's structure beyond the tree itself); `SyncSpec` what
may change, `RunSpec` which hook calls are made and logged, `CallSpec` order of the calls; `ConvergeSpec`
the conditions for convergence; `LoadSpec` round trips; `DataSpec` contents regardless of back end and order;
`CopySpec` copies of the source; `ShowSpec` what dict() and str() of a diff should show; `ObsSpec` worlds that differ in what was reported only;
`OutcomeSpec` what each element of a diff comes to; `TextSpec` what str() of models and adapters should show; `ConcSpec` interleaved processes;
`ServerSpec` destinations on a Redis server; `FailSpec` what may be left when hooks fail;
`GlobSpec` Redis patterns and lower case; `ReprSpec` Python literals; `RowSpec` records that are loaded, with the documented `load()`;
`FleetSpec` sequences of synchronisations, `SkipSpec` what the skip flags select, `PoolSpec` the records after such calls, `FlagSpec` what all flags together leave out, `RefuseSpec` which records are refused, `ScanSpec` what a server may answer to SCAN; `LogSpec` records that are shown; `ConnSpec` clients that are asked for; `ShelfSpec` RedisStores filled from records; `ServeSpec` such a store as destination; `GatherSpec` records with repetitions, `RemoteSpec` a remote system that the hooks drive, `JsonSpec` a reader of JSON texts, `WideSpec` calls of arbitrary user code, `WideDiffSpec` such calls while a diff is calculated, `RoundSpec` repeated synchronisations, `EditSpec` edits between synchronisations, `TrySpec` edits between synchronisations that fail,
`KeepSpec` edits that are written back to a RedisStore, `GossipSpec` adapters that only grow, `TypesSpec` the types
of an adapter, `ForetellSpec` calls of each kind,
`ShareSpec` histories of constructions and calls, `PartSpec` diffs applied in parts, `IndepSpec` histories over several adapters, `LossSpec` runs in which commands fail, `CostSpec` the commands that a call sends with the replies it gets.

Property files (`Prop*.v`): the theorems, closed by `exact`, `Print Assumptions` beneath each and a
non-trivial `Example` beside it that meets the hypotheses. All other files hold lemmas.

Names: `Cnn_…` is a theorem for property Cnn; `…_refuted` proves that the property (or its unrestricted
version) is false in the model by an explicit witness checked by computation; `…_example` is a test.

## Modelling decisions

* **Objects.** A heap (list of object records, reference = index). LocalStore holds references, so aliasing,
  `is` comparisons and in-place mutation are represented. RedisStore holds snapshots; every read allocates.
* **Exceptions.** `M S A := S -> S * result A`; an exception keeps the state reached so far. Theorems about
  crashes and failures quantify over every point where a hook can raise.
* **User hooks** `create/update/delete`: an arbitrary function `world -> hookcall -> outcome`; the outcome says
  whether the base method ran, which status was set, which fields of the object were written, and whether the hook returned the model, returned None or raised
  any exception. It may depend on the whole world, so it can behave differently at each call.
* **Ordering hooks** of `Diff` subclasses: an arbitrary function giving a list of indices for each group of
  siblings (it may drop or repeat elements; theorems state when it must not).
* **Recursion.** `DiffSyncDiffer` and `BaseStore.remove` recurse over child references, which may be cyclic. They take
  fuel; exhaustion is Python's RecursionError. Theorems hold for every fuel or say how much is enough.
* **Observable effects** (hook calls, progress callbacks, status logs, sync_complete) are appended to a trace.
* **Flags** are bit masks (`N`), every combination is covered.

## Simplifications (also in the comments of the definitions)

* Field values are None, bool, int, str, NaN, and nested lists and string-keyed dicts of these. Other floats, tuples and arbitrary objects as
  values are not represented. `repr` escapes as Python does, except that it leaves all characters outside ASCII as they are. Identity shortcuts for NaN inside lists are ignored.
* Strings are byte strings; `lower()` is ASCII. Redis matches key patterns as its documentation and source (stringmatchlen) say, with classes; the ends of a
  class are compared by unsigned code, and `*` matches the empty key. SCAN answers each key once, in order of insertion; C83 is about servers that do not.
* Pydantic: required fields and unknown names are modelled, coercion and validation of values are not. Child-list fields
  are lists of strings with default `[]`; a model's JSON text has them after the other fields, and bytes above 127 as they are. Pickling is faithful.
* A store belongs to one adapter, except in C100. Adapters' `load()` is user code: what it produces is arbitrary,
  except in C75, C77, C79, C81, C86, C87, C94 to C97, which are about the `load()` of the documentation, and C88, which is about that of example 04.
* Hooks write fields that the object has, other than its identifiers (other names are ignored), and have no effects on child
  lists, other objects and adapters. `sync_complete` has none. C91 drops these restrictions for the synchronisation, C92 for the calculation of the diff.
* `str(exception)` is a fixed text per exception class; log records carry level, context, status and message.
* The syncer's recursion over the (finite) diff tree is not limited by Python's recursion limit, except in C91.

## Not modelled

Rendering of log records, user-supplied logging configurations, `OrderedDefaultDict` beyond what the diff uses,
`DiffSyncModel.__hash__`-like object protocol of pydantic, type annotations, the
deprecated alias `DiffSync`, documentation and examples. Concurrency: only processes that share a
Redis server (C31, C68, C69, C71, C82, C83; a SCAN is one step); threads within a process are not modelled. None of the properties needs these parts.

## Properties

How each is modelled and proved. "False" means a `_refuted` theorem; the positive theorem then has the
restriction that makes it true.

* **C01–C04, C06** Diff elements and trees: action, attribute diffs, has_diffs/summary/dict/str agreement, len, uniqueness.
  Induction on trees, mutual with the groups of children.
* **C05, C07–C17** The differ. `calculate_diffs` is shown equivalent to the relation `faithful_diff` (C09_exact, both
  directions, so errors are characterised too); the other properties are proved from the relation. NaN refutes C07.
* **C18–C20** Unique ids (injective if identifiers avoid `__` at the seams; refuted otherwise), class checks, child lists.
* **C21–C27** LocalStore: refinement to a register for all operation sequences (C21); cascading removal is reachability
  (C23); counts, by-uid lookup, get-or-create, adapter references. C24 and C27 are false in corner cases.
* **C28–C31** RedisStore: refinement to a register per store id, with `:`/glob characters excluded and shown to break it;
  upper-case counts (C29 false); in-place changes never reach the server (C30 false); two concurrent adds (C31 false).
* **C32, C33, C37** Convergence: after a successful sync into a LocalStore the diff is empty and a second sync calls no
  hook. Conditions `alike` and `comparable` (forests, unique parents, classes of the same shape, no NaN, enough
  recursion depth); hooks may write any field that is no attribute. Induction over the diff tree with an invariant relating heap, store and remaining tree. Refutations for NaN, hooks that write attributes,
  moved children (C48), orphans (C41), Redis destinations (C30).
* **C34, C35** What a sync leaves alone: the source entirely; destination objects without an element.
* **C36, C38–C42, C46, C47** Hook calls as a function of the diff, containment of failures, first failure, consistency of the
  store, sync_complete, progress, log records. Induction over the tree, for arbitrary hooks.
* **C43–C45, C50** Supplied diffs, flags, IGNORE, sync_to = sync_from.
* **C41, C48, C49** False; witnesses.
* **C51–C53** dict/load_from_dict round trip, tree traversal, get_path/set_key: induction over contents and nested dictionaries.
* **C54–C56** Diffs depend on the entries only, not on the back end (C54) or the order of insertion (C55, up to the order of siblings);
  having no differences is transitive (C56). Two-run arguments over `faithful_diff`.
* **C57** What the default create, update and delete do to an object, and what they leave alone.
* **C58** The destination ends as a copy of the source (same objects, values, children, count) when nothing is left out by flags,
  top-level types agree and the source has no unreachable objects; the last two are shown necessary.
* **C59–C61** What `Diff.dict()` and `Diff.str()` show, and the order of diff elements: induction over trees against
  a relational report (ShowSpec); refuted for child types named "+"/"-" and for comparisons across diffs.
* **C62** Progress callbacks and debug logging have no influence on the result: a relation between two runs, preserved by
  every step.
* **C63, C64** The exact final state of a synchronisation as a function of the diff, and hence its independence of the
  order in which elements are applied.  The footprints of the elements are disjoint (ConvRun), so each outcome is that of
  applying its element alone.
* **C65–C67** str() of models and adapters against a relational portrait (TextSpec), by induction on the stack; accessors and
  names by computation on the declarations.
* **C68, C69** Several processes and one Redis server. Each store method is a program of commands; alone it computes what the
  one-step model of StoreDefs.v does (a simulation closed under the combinators of the monad), and it keeps to the keys of its
  stores. The same for the differ and the syncer (ConcSync: states that contain a world; hooks of a process see its memory, not
  the server). Hence isolation, by a simulation between an interleaving and the process alone. Invariant over
  interleavings for concurrent additions; schedules as witnesses against the other calls.
* **C70** What a synchronisation leaves on a Redis server: the run as a list of entries set and removed, each asked for by an
  element and each element heard (induction over the diff), then entry by entry. Witnesses against comparing or repeating.
* **C71** Calls on a RedisStore that are cut short: over the command programs of C68, every state that a run passes through. A
  call's program writes at most once (a removal with children only deletes); both are properties of the program tree, by
  induction on it.
* **C72** What a synchronisation leaves when hooks fail: the induction of C63 with every step in its three versions (the hook
  succeeds, the element is given up, the run is broken off), FailSteps and FailRun; stated by an inductive relation on the diff
  (`went`).
* **C73** Synchronisations repeated after failures: the conditions of C32 are an invariant of such synchronisations (FailAlike,
  from C72), by induction on their number.
* **C74** Texts of values: a grammar of literals (ReprSpec) that the text satisfies, by induction on the value; the text is
  uniquely readable, by the same induction (the encoding of characters is prefix-free, checked for all 256).
* **C75** Records loaded into two adapters and synchronised, from the data to the data: loading is described by an invariant over
  the records loaded so far (RowFacts), which implies all conditions of C32 and C58 (RowEnd), whose theorems give the rest.
* **C76** No differences means the same contents: the diff is faithful (C09) and complete, and an undisturbed pair of trees is a copy (AgreeFacts).
* **C77** Several adapters and a sequence of synchronisations: an invariant of all adapters (`sound`, FleetEnd) that each call preserves;
  C34 for those not concerned, C58 for the destination.
* **C78** What SKIP_UNMATCHED_SRC and SKIP_UNMATCHED_DST select: which elements the diff has (C09), what each leaves, and that
  objects without an element are untouched.
* **C79** Sequences of synchronisations with any flags: as C77, with C78 for the destination; records are replaced by `pool`, which is
  about lists of records only.
* **C80** All flags together: `left_out` says which keys the flags pass over, from the two adapters only (no diff); the elements of the
  diff are shown to be those of the other keys, and the run (`done`, `moved` of C32) is read off in these terms.
* **C81** `loadable` and `refused` describe the records; the invariant of C75 holds after every prefix, and a case analysis of the next
  record gives the exception and what is stored. Refuted for what a refused record leaves behind and for records that are their own parent.
* **C82** Every command of a synchronisation is shown to add an entry that the rest of the run keeps, to remove one that the rest of the
  run does not restore, or to change nothing (an invariant of the command sequence, over all hooks, by induction on the tree of elements);
  at the cut the remainder is then run to its end. Beside readers the system is simulated by the one writer.
* **C83** The possible outcomes of a program are a recursive predicate over its commands. Programs whose continuation after SCAN depends only on
  whether the answer is empty have one outcome, whatever the answer; this covers all calls but the listing ones, and the syncer. For the differ each
  list of a type is read with the same objects in some order with repetitions; indexing by unique id makes that a permutation of the list, and the
  theorem on the order of insertion (C55) gives the rest.
* **C84** Configuration: `logging.basicConfig` does nothing if the root logger has handlers, structlog prints everything unless configured (facts
  about the standard library and structlog, taken from their documentation). Information and debug records that carry no status
  (beginning and end of a diff, attempts) are not in the trace; at verbosity 0 they are not shown. Silence: induction over the course of
  a synchronisation (RunSpec), of which every step that is not a success leaves a grave record.
* **C85** By cases over the arguments; the network is an arbitrary function from clients to replies.
* **C86** By induction over the records, with and without the `update`. For the synchronisation the conditions of C32 are derived for a
  source whose reads are the records' snapshots; they ask for well-behaved lookups only under the types a comparison asks for (`asked`), since a
  RedisStore answers for names such as `*` too.
* **C87** The comparison reads the same as one of two adapters with LocalStores that hold the snapshots (`mirror` in ServeRead), so the
  diff is the one that C75 is about; its run into a RedisStore succeeds by induction over the diff (ServeRun), and what it does to the
  server is C70.
* **C88** Induction over the records with the invariant of C75 for the records so far, in which a repetition replaces the values of one.
* **C89** A second rule for the syncer (SyncPost) carries, beside the frame of C13, an assertion about the trace: the remote system made by the events so far is in step
  with the destination, except for the object between its hook call and its addition or removal. It does not constrain the calls themselves. The copy follows with C58.
* **C90** JSON of a model: the writer (`JsonDefs`, pydantic's `model_dump_json` without arguments) against an independent reader with
  its own tokens (`JsonSpec`); induction on values, the reader leaving any rest that begins with `,`, `]` or `}`. False: NaN (null).
* **C91** Arbitrary user code: a second syncer (`WideDefs`) in which hooks, callback and sync_complete are programs on the world, with
  Python's recursion limit and a log of the calls. It is equal to the first for the hooks of `SyncerDefs`; the log is described by an inductive relation
  on diff trees (`visit`, `WideSpec`), by induction on elements. False: given diffs with an update below a deletion in natural order.
* **C92** The same for the differ: `WideDiffDefs` reads objects and adapters where the code reads them. For user code that only reads, a simulation with the pure differ
  (`WideDiffSim`); for any, an invariant of the log, the worlds and the elements made so far (`WideDiffFacts`). False: a diff calculated while data changes is that of some moment.
* **C93** What hooks write: the convergence proof (C32) with an arbitrary set of written fields, whose conclusion is that attributes outside the set agree
  (`ConvAgain.after_but`, `ConvEnd.settles`). The second synchronisation has updates only, so it equals one whose other hooks are the default ones
  (`RoundFacts.same_sync`). False: update hooks that write attributes; a fixed point, for all numbers of synchronisations.
* **C94** Edits: a refinement.  `EditSpec` gives each change (insertion, assignment, removal, synchronisation) twice, as a program on the
  world and as a function on lists of records; the invariant (each adapter carries its records, the adapters share no object, each record is one that was
  inserted but for its attributes) is preserved by each change, the removal by C23's characterisation of what a cascade removes.
* **C95** Edits and failures: `TrySpec` says what a step may do to lists of records (`may_become`: an edit has one result, an attempt to
  synchronise any result that `partly` allows).  `FailRows` reads from `FailAlike` what a failed synchronisation leaves of
  each object; `TryFacts` turns that into a list of records, `TryEnd` keeps the invariant `poised` of C94.
* **C96** Edits that are written back: the changes of C94, each followed by `update` (`KeepSpec`), for adapters with either store; adapters with
  one store id share their records (`same_place`). `GiveFacts` proves the record-level effect of a synchronisation from whatever a source gives
  out (`gives`), which both a LocalStore and a RedisStore do; `KeepFacts` has the single edits (`beside`: what an edit of a RedisStore leaves
  alone), `KeepEnd` the invariant of the sequence (`kept`). Destinations of synchronisations have LocalStores: a synchronisation into a
  RedisStore does not write back what it changes (C70, C87).
* **C97** Adapters that only grow: strong eventual consistency. What an adapter knows is an inductive relation over the history (`knows`), not a
  merge of lists; the records of C94 are shown to have the same keys by induction from the end of the history, and an adapter that carries some records carries
  every list that agrees with it (`carries_alike`).
* **C98** The tree of types. C52 says that it is complete; here it is exact. `declares`, `descent` and `stem` speak of classes only. The invariant
  of the loop (`TypesFacts.shows_visited`) says which lines of descent are shown when some of the types have been visited; that a parent is visited before its children
  needs the alphabetical order of `dir()` (`ssort_ordered`). The text is decoded by prefix codes (`drawn_inj`), the lines by depth (`walk_inj`).
* **C99** A summary and what follows. The bound is by induction over the courses of RunSpec (`ForetellFacts.run_due`), for any ordering; exactness over the
  relation `calls` of C36 (`calls_due`). For the number of objects, the elements of a computed diff have distinct keys (`keys_once`), so the
  keys afterwards with those deleted are a permutation of the keys before with those created (`len_after`).
* **C100** Constructions and sharing. C100_own is a simulation (`ShareFacts.mimic`): while every adapter is the adapter of its own store
  (`private`), each method does in the world of the other files what it does here. The rest from what a call leaves alone (`ask_frame`) and
  what a construction does (`make_cases`).
* **C101** Parts of a diff. The simulation of C62, for any set of events that are disregarded and from any leftovers of the element before
  (`PartFacts.part_body`); then induction over the parts.
* **C102** Sharing nothing. References stay valid under every operation (`IndepFacts.kw`), with the confinement of C34 this makes
  "nothing is shared" an invariant of every operation; then induction over the history. Values are immutable in the model, so that two
  objects with the same value (a list, say) do not count as sharing it.
* **C103** Commands that fail. The programs of commands again, each command with a continuation for the exception of the client; they are
  related to those of C68 by a simulation (`LossFacts.faith`) in which every exception that diffsync does not catch ends the program at once.
  With C71 and C82 this gives what is left on the server.
* **C104** Synchronising equals: C07 (no differences) with the idle synchronisation of C33 (`IdleFacts.from_idle`).
* **C105** Number of commands: a budget (`pays`) that every command draws on and that some replies top up; each call is
  shown to stay within its budget for all replies, and `talk` covers every run of a system of processes.
* **C106** Commands of a comparison: as C105, with results that are worth something (`earn`): the lists that were fetched
  carry the budget for their children, and pairing them does not lose any.
* **C107** The same with NATURAL_DELETION_ORDER: the syncer's action is an invariant of the children's visits (`leads`)
  when they are all deletions, and a computed diff has no others (`computed_whole` of WholeFacts.v again, for command programs).
  For other diffs the commands are counted exactly on a chain of any length (PropCostChain.v), where they are exponential.

No property is considered inexpressible.

## Trusted base

* The Coq 8.16.1 kernel, including `vm_compute` (used in examples and refutations). No native_compute, no plugins, no
  extraction. Only the standard library is used.
* `Print Assumptions` prints "Closed under the global context" for every theorem named in `MANIFEST.json`: no axioms at all.
  Loading the standard library (through `Lia`/ssr) brings the names `Coq.ssr.ssrunder.Under_rel.{Under_rel, Under_relE,
  Under_rel_from_rel, Over_rel, over_rel, over_rel_done, under_rel_done}` into the environment; they are parameters of a standard-library
  module type and no theorem depends on them.
* The reading of /repo: that the definitions of the model files say what the cited lines do, with the simplifications
  above. This was done by hand; the code was not run.
* Python semantics as encoded in `Base.v` (dict order, `==`, `str`, exception propagation, `in`, truthiness of `__len__`).
* Redis semantics as encoded in `StoreDefs.v` (get/set/delete/exists/scan_iter with glob patterns over one key space).

## Seeded bugs

`tools/seed.py` (run in a scratch copy) edits a definition of the model, rechecks every proof separately and reports
which lemmas break and which theorems rest on them. `seeded/LOG.jsonl` has one line per attempt.
