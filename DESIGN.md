# Formal model of lionherd-core in Rocq: design

## Approach

* `/repo` is read as text only. Each Python function that is modelled becomes one
  total Gallina function that follows it branch by branch. Raised exceptions are
  values (`Raise e`), never partiality.
* Stateful classes are records plus `step : state -> op -> state * out`
  functions; a history is a list of operations folded over the initial state.
* Concurrency (threads under an RLock, anyio tasks) is a labelled transition
  system: each atomic section is one step, and a schedule is an arbitrary
  sequence of (task, step) choices. anyio tasks only switch at `await`.
* Unspecified iteration orders (Python `set`) and external calls (user
  callbacks, similarity functions, permission answers, clocks, type coercions)
  are function arguments or section variables, so theorems hold for all of them.
* Where the natural reading of the documentation is false of the faithful model,
  the theorem `..._refuted` exhibits a concrete reachable counterexample and the
  restricted positive statement is proved next to it.

## File layout (`rocq/theories`)

* `Py*.v`      small models of Python built-ins (list index/insert/pop, dicts).
* `Model*.v`   models of the code, definitions only, each citing file and lines.
* `Spec*.v`    independent specifications (what a user would write down).
* `Proofs*.v`  lemmas and proofs.
* `Properties*.v` only final theorems (`exact lemma`), their non-vacuity
  `Example`s and `Print Assumptions`.

## Trusted base

* Coq 8.16.1 kernel (including `vm_compute`, used for concrete witnesses).
* What `Print Assumptions` lists for each property theorem.  It is "Closed under the
  global context" for every theorem of C01-C102 and C105.  The theorems of C103, C104 and C106 are about
  Flocq's binary64 and so about Coq's real numbers; each of them uses the standard
  library's axioms `ClassicalDedekindReals.sig_forall_dec`,
  `ClassicalDedekindReals.sig_not_dec`,
  `FunctionalExtensionality.functional_extensionality_dep` and
  `Classical_Prop.classic`, and no others.
* The correspondence between the Gallina functions and the cited Python lines,
  established by reading.
* Modelling conventions: UUIDs are natural numbers compared by equality (an
  unbounded supply of opaque ids); Python ints are `Z`; floats used as scores or
  priorities are rationals (`Q`/`Z`), i.e. rounding error is not modelled unless
  said so; strings are lists of code points or Coq `string`s.
* Not modelled: pydantic's own validation machinery, anyio/asyncio internals
  beyond the semantics stated in the concurrency models, garbage collection
  beyond "a weak reference may die at any step unless strongly held", network
  and adapters, logging, warnings, docs, CLI and `testing.py`.

## Plan per property

| id | model | proof |
|----|-------|-------|
| C01-C04 | `ModelProgression` over `PyList` (index normalisation, clamped insert) | equations against positional specs (`nth_error`, firstn/skipn), permutation lemmas |
| C05-C08, C11, C12 | `ModelPile`: assoc-list dict + progression; class hierarchy as a subclass predicate | invariant over histories; refinement to an ordered map; `_refuted` for constructor order |
| C09, C10, C13 | thread LTS over `ModelPile` with split include/exclude and a positional iterator | invariant by induction on schedules; concrete races |
| C14-C16 | `ModelFlow`: piles + name dict | invariants over histories, refuted duplicates / atomicity |
| C17, C18, C22 | `ModelGraph` with in/out adjacency lists, set order arbitrary | invariant; exact characterisation of removal; dangling counterexample |
| C19-C21 | three-colour DFS, Kahn and BFS with fuel bounded by the graph size | correctness against inductive paths, fuel sufficiency proved |
| C23-C25 | `ModelEvent` task LTS with a lock; outcome type incl. exception trees | at-most-once invariant, status automaton, refutations |
| C26 | `ModelHeap`: CPython heapq sift-up/down on lists | heap invariant, multiset equations |
| C27, C28 | `ModelPQueue`: tasks, lock, FIFO condition, notify(1) | invariants over schedules; lost wakeup witness for bounded queue, absence for unbounded |
| C29-C33, C118 | `ModelProcessor`: queue, denials, capacity, executor progressions | invariants over histories; witnesses; for C118 a weight that every effective step lowers |
| C34, C35 | `ModelPubSub`: weak references with liveness | delivery equations over histories |
| C36-C41 | `ModelPatterns`, `ModelAsyncCall`: completion permutations, outcome lists | induction |
| C42-C44 | `ModelSimilarity`: two-row DP, Jaro window matching | DP = minimal edit script; bounds over Q |
| C45 | `ModelFuzzyMatch` over an arbitrary score function | set/multiset invariants of the two passes |
| C46, C47, C51, C73 | nested value trees | structural induction |
| C48, C49, C50, C52 | small functions | induction / arithmetic, refutations |
| C53-C58 | `ModelLexer`, `ModelParser` | position invariant, fuel sufficiency, round trips |
| C59-C62 | `ModelResolver`, `ModelFuzzyLndl` | soundness by case analysis and induction |
| C63-C67 | `ModelTypes` | history invariants |
| C68 | exception trees | structural induction |
| C69-C71 | `ModelSerde`: dict-valued encodings | round-trip equations |
| C72 | `ModelLeak` | history invariant |

Nothing in the list is considered inexpressible; numeric rounding of floats is
the main simplification (C38, C43 and C49 are exact; C106, C103 and C104 are the same with rounding).

## What is modelled so far

Each definition cites file and lines; the heads of the `Model*.v` files repeat the
simplifications.

| Python | Coq | left out / simplified |
|--------|-----|------------------------|
| `base/progression.py` | `ModelProgression` | serialisation; `extend(self)` on itself |
| `base/pile.py` (collection operations, queries, iteration) | `ModelPile` | serialisation (see C70), adapters; items are id + class + payload |
| `base/pile.py` locking | `ModelPileThreads`, `ModelPileRead` | the RLock is modelled as a non-reentrant owner plus atomic method bodies; async variants use the same bodies |
| `base/flow.py` | `ModelFlow` | serialisation, locking |
| `base/graph.py` | `ModelGraph` | serialisation, locking; edge conditions are pure; node/edge piles are ordered maps (justified by C06) |
| CPython `heapq`; `libs/concurrency/_priority_queue.py` | `ModelHeap`, `ModelPQueue` | items compared by an arbitrary `lt`; anyio's `Lock` (FIFO, direct hand-over) and `Condition` (FIFO, `notify(1)`) are modelled from their documentation and are part of the trusted base; one call per task; a cancelled waiter that was already notified does not pass the notification on |
| `base/event.py` (invoke, as_fresh_event, add_error, error serialisation) | `ModelEvent`, `ModelExc` | what the user's operation does is an input; `fail_after` is modelled by an outcome "deadline passed"; the lock admits callers in any order; subclass fields are assumed to survive `model_dump`; str() of errors is opaque |
| `libs/concurrency/_errors.py` | `ModelExc` | CPython's `BaseExceptionGroup.split` is modelled (trusted); user subclasses of the group classes are left out |
| `base/processor.py` (Processor, Executor) | `ModelProcessor` | tasks interleave at their suspension points; the queue is the heap of `ModelHeap` with `put`/`get` as single steps (C26-C28 cover it); priorities are integers; event bodies are inputs (their final status), `stream()` bodies likewise; cancellation of process() and direct edits of `executor.states` are left out |
| `base/broadcaster.py`, `base/eventbus.py` | `ModelPubSub` | garbage collection is an operation on unheld objects; Python's == is a parameter; callbacks and handlers are inputs (how they end); `_instance` (see `ModelSingleton`), logging, outer cancellation left out |
| `libs/concurrency/_patterns.py` gather, bounded_map; `ln/_async_call.py` alcall | `ModelGroup` | anyio task groups, limiters and cancellation assumed as stated in the file; outcomes of calls and interleaving are inputs; delays are rationals; input/output conversion is `to_list` |
| `_patterns.py` race, CompletionStream | `ModelStream` | memory streams as FIFO queues; outer cancellation and an error of the block are inputs; a block that catches the cancellation left out |
| `_patterns.py` retry; `_async_call.py` bcall | `ModelRetry` | clock, random numbers and outcomes are inputs; floats are rationals except for int-to-float overflow |
| `libs/string_handlers/_string_similarity.py`; `ln/_fuzzy_match.py`; `get_bins` of `ln/_utils.py` | `ModelSim` | strings are lists of code points, `lower()` is a parameter, scores are exact rationals (cosine by its square); the default score of `string_similarity` is a parameter |
| `ln/_to_list.py` | `ModelList` | equality, hash and hash_dict are parameters; values are finite and acyclic |
| `libs/string_handlers/_fuzzy_json.py` | `ModelJson` | the JSON parser is a parameter; the cleaning is in `ModelClean` |
| `libs/string_handlers/_to_num.py` | `ModelNum` | floats are exact rationals, infinities and NaN |
| `libs/schema_handlers/_minimal_yaml.py` | `ModelYaml` | texts enter as blank or not; `orjson.loads` is a parameter; the YAML writer is left out |
| `ln/_hash.py` | `ModelHash` | subclasses of built-in types left out; floats are dyadic fractions, infinities and NaN objects, their texts a parameter (different floats, different texts); texts are UTF-8 bytes; tuple, string and NaN hashes are parameters |
| `libs/schema_handlers/_function_call_parser.py` | `ModelCall` | Python's parser: calls enter as syntax trees with the outcomes of `literal_eval` |
| `lndl/lexer.py` | `ModelLexer` | texts are lists of code points; Unicode character classes above 127 are parameters |
| `lndl/parser.py` (`Parser`), `lndl/ast.py` | `ModelParser` | regular expressions as lists of pieces; `float()` results kept as texts; error messages |
| `lndl/resolver.py`, `parse_value` of `lndl/parser.py` | `ModelResolver` | `literal_eval`, converters, `parse_function_call`, pydantic as parameters; debugging copies in `LNDLOutput`; error messages |
| `lndl/fuzzy.py` | `ModelFuzzy` | scores as rationals; unnamed specs are not candidates; model classes identified by name; logging |
| `lndl/types.py` | `ModelGuard` | cyclic values; serializers, aliases and exclusions in `model_dump`; validation as a parameter |
| `types/base.py` (`Params`, `DataClass`), `types/_sentinel.py` (`is_sentinel`), call operators in `ln/` | `ModelParams` | multiple inheritance, default factories, positional arguments, hashing and equality; container copies as parameters |
| `types/spec.py`, `types/operable.py`, `types/spec_adapters/pydantic_field.py` (fields and models) | `ModelSpec` | flattening of positional metadata, warnings, thread locks, pydantic itself; types and Python objects are arbitrary sets with the observations used |
| `base/element.py`, `node.py`, `pile.py`, `graph.py`, `flow.py` (to_dict, from_dict), `to_uuid`, `coerce_created_at` of `base/_utils.py` | `ModelSerde`, `ModelSerdeGraph` | float rounding of timestamps, text formats (parameters with a stated inverse), keyword arguments passed to pydantic, embeddings, nested piles as items |
| `libs/concurrency/_resource_tracker.py` | `ModelLeak` | several threads contending for the lock (each method is atomic), the module-level functions |
| `ln/_to_dict.py` | `ModelToDict` | keyword values (only names), dict() of other iterables of pairs than frozensets |
| `ln/_list_call.py`, input of `ln/_async_call.py` alcall | `ModelLcall` | a function that changes the list it is applied to |
| `string_handlers/_extract_json.py` | `ModelExtract` | orjson.loads (parameter) |
| `ln/_fuzzy_validate.py`; `types/spec_adapters/_protocol.py` validate_response, update_model | `ModelValidate` | non-string keys; pydantic, to_dict of values that are no text (parameters) |
| `ln/_json_dump.py` | `ModelDump` | orjson, issubclass, the serialisers (parameters); BaseExceptions in model_dump() |
| `schema_handlers/_typescript.py` | `ModelTypescript` | malformed schemas; non-ASCII texts |
| `base/node.py` (embedding, content, registry) | `ModelNode` | orjson and json (parameters with hypotheses); pydantic's own checks; adapters |
| `ln/_utils.py` (acreate_path) | `ModelPath` | symbolic links, permissions, other processes; strftime and uuid4 are parameters |
| `libs/string_handlers/_fuzzy_json.py` (_clean_json_string) | `ModelClean` | the regular expressions are scans over code points; the set of whitespace characters is a parameter |
| `libs/concurrency/_cancel.py`, shield of `_errors.py` | `ModelDeadline` | one task; anyio's cancel scopes as stated in the file; integral times; the clock does not move inside fail_at |
| Queue of `libs/concurrency/_primitives.py` | `ModelChannel` | anyio's memory object streams as stated in the file; sender and receiver properties (clones of the streams); statistics |
| coerce_created_at of `base/_utils.py`, timestamp format of `base/element.py` | `ModelCreated` | `float(str)` and `fromisoformat` are parameters; timestamps of naive datetimes; `fold`; 64-bit CPython's limits |
| `types/model.py` | `ModelHashable` | what pydantic accepts for a field is a parameter; aliases; the JSON text itself (ModelDump) |
| `base/_utils.py` (load_type_from_string with cache, extract_types), `base/element.py` (class_name) | `ModelTypeName` | what an import changes in other modules; unhashable members of a list of types |
| `base/graph.py` under threads | `ModelGraphThreads` | one dict, set or pile operation per step; iteration order as a function of the present members; other queries than the four one-step ones (is_acyclic only at one moment) |
| `base/flow.py` under threads | `ModelFlowThreads` | one dict, list or pile operation per step; item type checks; progressions the flow no longer holds; get_progression of a progression object |
| `protocols.py` implements | `ModelImplements` | attributes as kinds; enumerations as protocols |
| `libs/string_handlers/_string_similarity.py` in binary64 | `ModelSimFloat` | texts below 2^53 characters; `x ** 0.5` is a parameter; sequence_matcher (see `ModelDiff`) |
| `libs/string_handlers/_to_num.py` in binary64 | `ModelNumFloat` | sign of zero; signaling NaNs; bounds that are no int or float |
| `libs/concurrency/_utils.py`, `_run_async.py`; one call of `ln/_async_call.py` alcall and `base/broadcaster.py` broadcast | `ModelBridge` | timeouts; objects marked as coroutine functions; the cache of is_coro_func; StopIteration in a worker thread |
| `libs/concurrency/_patterns.py` retry, the arithmetic of lines 219-228 in binary64 | `ModelRetryFloat` | bool and Decimal arguments; what anyio.sleep does with infinities, NaN and negative delays |
| `libs/schema_handlers/_schema_to_model.py` | `ModelSchemaModel` | version choice, message texts, removal of the temporary directory; the generator, import system and pydantic's rebuild are parameters |
| `types/_sentinel.py` (`_SingletonMeta`, copy, deepcopy, pickle, `is_sentinel` without flags) | `ModelSentinel` | constructor arguments, union operators, containers holding sentinels |
| `base/pile.py` `__aenter__`, `__aexit__` over `libs/concurrency/_primitives.py` `Lock` | `ModelPileAsync` | anyio's Lock is described by its documented behaviour (FIFO hand-over, error on re-acquisition, cancelled waiters); catching an exception inside a block; one pile used from several event loops |
| `base/processor.py` `execute`, `stop`, `is_stopped` | `ModelExecute` | the length of sleeps; overridden process(); exceptions out of process() |
| `libs/string_handlers/_string_similarity.py` `sequence_matcher_similarity`, difflib's `SequenceMatcher.ratio` | `ModelDiff` | rounding of the quotient |
| `types/base.py`, `types/spec.py`, `base/element.py`: `__eq__` and `__hash__`, and those that @dataclass adds | `ModelEquality` | classes that define both themselves are found but not run; unset fields; `==` that raises |
| tasks on Queue of `libs/concurrency/_primitives.py` (as ModelChannel, step by step) | `ModelQueue` | several queues on one stream; native asyncio cancellation; `sender` and `receiver` used directly |
| `errors.py`; get_json_serializable of `base/_utils.py`; Execution.to_dict of `base/event.py` | `ModelReport` | json_dumpb and to_dict (parameters); str(error) that raises; the cause of an error |
| `base/processor.py` `process`, `_with_semaphore`, `_update_progression` cut short | `ModelInterrupt` | operations raising a BaseException other than cancellation; operations that swallow it for ever |
| base/processor.py: parameters of Processor, Executor.start | `ModelProcessorParams` | permissions, events removed while queued, the order of the queue; numbers other than int and float |
| `base/processor.py` `execute` cut short | `ModelExecuteCut` | how long sleep() takes; subclasses overriding process() |
| Semaphore of `libs/concurrency/_primitives.py` | `ModelSemaphore` | anyio's Semaphore by its documented behaviour (FIFO, hand-over on release, cancelled waiters pass the slot on); several event loops; a cancellation that meets a hand-over in the same turn of the loop |
| `Element.to_json`, `Element.from_json` of elements, nodes, piles, graphs and flows (`base/element.py`) | `ModelJsonText` | the characters of the text (it is represented by the data orjson reads from it); keyword arguments of model_dump |
| assignment to and creation of events: metadata, timeout, streaming, status (`base/element.py`, `base/event.py`) | `ModelAssign` | the field execution and fields of subclasses; bytes as keys; mappings that are no dicts; rounding of ints to floats; pydantic by its documented behaviour |
| `find_path` interrupted while a condition is awaited (base/graph.py:360-406) | `ModelPathAwait` | cancellation; assignment to attributes of edges; which elements an iterator yields after a change of equal size is left open |
| `lcall`, `alcall` on a list that changes meanwhile (ln/_list_call.py:80-98, ln/_async_call.py:120-239) | `ModelLiveInput` | attempts inside a call are one answer; cancellation from outside; output options |
| `base/flow.py` with its piles and progressions used directly | `ModelFlowDirect` | of flow.progressions only add and remove; assignment of whole piles to the flow |
| `base/graph.py` with its piles used directly | `ModelGraphDirect` | of the piles only add and remove; type checks of the piles |
| `base/broadcaster.py:33-36` `__new__` | `ModelSingleton` | classes made later; other assignments to `_instance` |
| `ln/_utils.py:129-156` `import_module`, `is_import_installed` | `ModelImport` | Python's import system is modelled, not read from `/repo`: what the code of a module imports itself, relative names, `*`, `__getattr__` of modules, import hooks |

Modelling parameters that theorems quantify over: the order in which Python sets are
iterated (`ord`, any permutation per call site), the recursion limit (`lim`), the class
hierarchy (`sub`), and the thread schedule.

`vcheck` also lists `Coq.ssr.ssrunder.Under_rel.*`: these come from a module type in the
standard library's ssreflect files and are used by no theorem here.
