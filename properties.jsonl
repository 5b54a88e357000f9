{"id": "C01", "title": "Progression positional operations follow one index convention", "statement": "For every progression and every integer index (negative, in range, out of range) p[i], p[i]=x, pop(i), popleft, insert(i,x) and index(x) read, replace, delete or insert exactly the position that Python's normalised index denotes, raise exactly when that position does not exist, and leave every other position untouched. A new progression holds exactly the ids named by what it was given, in order and with repetitions, and is refused with a ValueError iff some item names none.", "quantifier": "all finite sequences of ids (with duplicates), all integers, all ids", "why_tests_cant": "The index space is unbounded in both directions and interacts with length; a test samples a few lengths and indices.", "anchors": ["src/lionherd_core/base/progression.py:Progression.__getitem__", "src/lionherd_core/base/progression.py:Progression.__setitem__", "src/lionherd_core/base/progression.py:Progression.pop", "src/lionherd_core/base/progression.py:Progression.insert", "src/lionherd_core/base/progression.py:Progression.index"]}
{"id": "C02", "title": "Progression.move relocates one entry and nothing else", "statement": "If both indices are valid, move(from,to) yields the sequence obtained by deleting the entry at position from and re-inserting it before what was at position to in the original sequence (at the end for to==len); the result is a permutation and all other entries keep their relative order. If an index is invalid NotFoundError is raised and the sequence is unchanged.", "quantifier": "all sequences, all integer pairs (from,to)", "why_tests_cant": "Off-by-one adjustment depends on the relation of two unbounded indices.", "anchors": ["src/lionherd_core/base/progression.py:Progression.move", "src/lionherd_core/base/progression.py:Progression._validate_index"]}
{"id": "C03", "title": "Progression.swap and reverse are exact involutions", "statement": "swap(i,j) exchanges precisely the two addressed entries (negative indices allowed), is its own inverse, and reverse applied twice is the identity; both preserve the multiset of entries.", "quantifier": "all sequences, all integer pairs", "why_tests_cant": "Universally quantified algebraic law.", "anchors": ["src/lionherd_core/base/progression.py:Progression.swap", "src/lionherd_core/base/progression.py:Progression.reverse"]}
{"id": "C04", "title": "Progression include/exclude are idempotent set operations", "statement": "include(x) returns True iff x was absent, afterwards x is present and calling it again returns False and changes nothing; exclude(x) returns True iff x was present; on a sequence without duplicates x is absent afterwards and a second call returns False. (With duplicates the absence part is violated.)", "quantifier": "all sequences, all ids", "why_tests_cant": "Requires quantification over sequences with arbitrary duplication.", "anchors": ["src/lionherd_core/base/progression.py:Progression.include", "src/lionherd_core/base/progression.py:Progression.exclude"]}
{"id": "C05", "title": "Pile's two internal stores never drift apart", "statement": "After any history of public mutations on a pile constructed without a custom order (or with an order that is a permutation of the item ids), iteration yields every stored item exactly once, len equals the number of iterated items, and membership agrees with iteration.", "quantifier": "all histories of add/remove/pop/update/clear/include/exclude over all items", "why_tests_cant": "Histories are unbounded; drift can need many steps.", "anchors": ["src/lionherd_core/base/pile.py:Pile.add", "src/lionherd_core/base/pile.py:Pile.remove", "src/lionherd_core/base/pile.py:Pile.pop", "src/lionherd_core/base/pile.py:Pile.__iter__", "src/lionherd_core/base/pile.py:Pile.__len__"]}
{"id": "C06", "title": "Pile behaves as an insertion-ordered map", "statement": "Every public result (returned item, raised error kind, membership, length, positional lookup, iteration order) over any history equals that of a plain ordered association list keyed by id in which add appends, update replaces in place and remove deletes.", "quantifier": "all operation histories", "why_tests_cant": "Refinement over all histories.", "anchors": ["src/lionherd_core/base/pile.py:Pile"]}
{"id": "C07", "title": "Failing Pile operations change nothing", "statement": "When an operation on a pile raises (ExistsError, NotFoundError, TypeError) the pile is observably unchanged.", "quantifier": "all reachable piles, all operations that raise", "why_tests_cant": "All failure paths at all states.", "anchors": ["src/lionherd_core/base/pile.py:Pile.add", "src/lionherd_core/base/pile.py:Pile.remove", "src/lionherd_core/base/pile.py:Pile.update"]}
{"id": "C08", "title": "Pile type constraint is an invariant", "statement": "Every item ever stored in a pile with item_type T satisfies the constraint (subclass of some allowed type, or exactly an allowed type if strict), whatever the history, and items violating it are rejected with TypeError.", "quantifier": "all class hierarchies, all allowed-type sets, strict or not, all histories", "why_tests_cant": "Quantifies over class hierarchies and histories.", "anchors": ["src/lionherd_core/base/pile.py:Pile._validate_type", "src/lionherd_core/base/pile.py:Pile.add", "src/lionherd_core/base/pile.py:Pile.update"]}
{"id": "C09", "title": "Pile stays consistent under every thread interleaving", "statement": "For any number of threads issuing any operations, with locked operations atomic and include/exclude executing their membership check and mutation as separate steps, every reachable state satisfies C05.", "quantifier": "all thread counts, programs and schedules", "why_tests_cant": "Schedules are not enumerable by tests.", "anchors": ["src/lionherd_core/base/pile.py:Pile.include", "src/lionherd_core/base/pile.py:Pile.exclude", "src/lionherd_core/base/_utils.py:synchronized"]}
{"id": "C10", "title": "Pile.include / exclude return values mean membership", "statement": "include returning True means the item is in the pile at the linearisation point and False only when validation fails; exclude True means absent and False only if id coercion fails. (Violated under concurrency: both can return False although the item is in / absent.)", "quantifier": "all schedules of concurrent include/exclude/add/remove", "why_tests_cant": "Race between check and act.", "anchors": ["src/lionherd_core/base/pile.py:Pile.include", "src/lionherd_core/base/pile.py:Pile.exclude"]}
{"id": "C11", "title": "Pile constructor order argument keeps the pile coherent", "statement": "Pile(items, order) with any order accepted by the constructor yields a pile satisfying C05. (Violated: orders that omit or repeat ids are accepted.)", "quantifier": "all item lists and order lists", "why_tests_cant": "Needs all order lists.", "anchors": ["src/lionherd_core/base/pile.py:Pile.__init__"]}
{"id": "C12", "title": "Pile queries return exactly the selected items in order", "statement": "pile[predicate], pile[slice], pile[progression], pile[[i..]], pile[[id..]] and filter_by_type return a new coherent pile containing exactly the selected items, in source order (resp. in key order), with the same type constraint, and leave the source unchanged; repeated keys raise. While other threads use the pile, pile[progression] ends after at most 2n+2 of its own steps: if it returns, every item was in the pile at some moment of the call; NotFoundError means that an id was absent at some moment, KeyError that one was there and went during the call; if the others only add or replace, KeyError is impossible and ids present at the start suffice to return. (The KeyError is not documented, and the items returned need never have been in the pile together.)", "quantifier": "all piles, predicates, slices, key lists", "why_tests_cant": "Universal over predicates and slices.", "anchors": ["src/lionherd_core/base/pile.py:Pile.__getitem__", "src/lionherd_core/base/pile.py:Pile._get_by_slice", "src/lionherd_core/base/pile.py:Pile._get_by_list", "src/lionherd_core/base/pile.py:Pile._filter_by_function", "src/lionherd_core/base/pile.py:Pile.filter_by_type"]}
{"id": "C13", "title": "Iterating a pile while it is mutated", "statement": "An iteration started on a pile yields every item that stays in the pile for the whole iteration, exactly once. (Violated: the iterator holds no lock, and removing an earlier item shifts positions so an unrelated item is skipped.)", "quantifier": "all interleavings of one iteration with other operations", "why_tests_cant": "Interleaving-dependent.", "anchors": ["src/lionherd_core/base/pile.py:Pile.__iter__", "src/lionherd_core/base/_utils.py:synchronized"]}
{"id": "C14", "title": "Flow referential integrity", "statement": "After any history of public Flow operations in which progressions hold no repeated ids, every id in every progression is the id of a stored item. (Violated when a progression holds an id twice and the item is removed.)", "quantifier": "all operation histories", "why_tests_cant": "Invariant over unbounded histories.", "anchors": ["src/lionherd_core/base/flow.py:Flow.add_progression", "src/lionherd_core/base/flow.py:Flow.remove_item", "src/lionherd_core/base/flow.py:Flow.add_item", "src/lionherd_core/base/flow.py:Flow.clear"]}
{"id": "C15", "title": "Flow name index is exact", "statement": "Starting from an empty flow, at every reachable state no two progressions share a name, get_progression(name) returns the progression carrying that name and fails when none does, and removing a progression makes its name reusable.", "quantifier": "all operation histories", "why_tests_cant": "Two stores kept in sync by hand.", "anchors": ["src/lionherd_core/base/flow.py:Flow.add_progression", "src/lionherd_core/base/flow.py:Flow.remove_progression", "src/lionherd_core/base/flow.py:Flow.get_progression"]}
{"id": "C16", "title": "Failing Flow operations change nothing", "statement": "On a flow grown from empty: add_progression, remove_progression and get_progression leave the flow unchanged whenever they raise; remove_item does too as long as every listed id is stored; add_item does when the item itself is refused. (add_item naming an unknown progression does not: the item stays stored and earlier progressions stay extended.)", "quantifier": "all reachable flows, all raising operations", "why_tests_cant": "All failure points.", "anchors": ["src/lionherd_core/base/flow.py:Flow.add_item", "src/lionherd_core/base/flow.py:Flow.remove_item"]}
{"id": "C17", "title": "Graph adjacency indexes match the edge set", "statement": "After any history of add_node/remove_node/add_edge/remove_edge, the in/out edge queries report exactly the stored edges whose tail/head is the node, every edge's endpoints are stored nodes, and failing operations change nothing.", "quantifier": "all operation histories", "why_tests_cant": "Redundant index maintained incrementally.", "anchors": ["src/lionherd_core/base/graph.py:Graph.add_node", "src/lionherd_core/base/graph.py:Graph.remove_node", "src/lionherd_core/base/graph.py:Graph.add_edge", "src/lionherd_core/base/graph.py:Graph.remove_edge", "src/lionherd_core/base/graph.py:Graph.get_node_edges"]}
{"id": "C18", "title": "remove_node removes exactly the incident edges", "statement": "remove_node(n) succeeds iff n is stored and leaves exactly the edges that touch n neither as head nor tail, self-loops included, and all other nodes.", "quantifier": "all reachable graphs, all nodes", "why_tests_cant": "All topologies.", "anchors": ["src/lionherd_core/base/graph.py:Graph.remove_node"]}
{"id": "C19", "title": "is_acyclic decides acyclicity", "statement": "is_acyclic() returns True iff no node reaches itself by a non-empty directed path, for every iteration order of nodes and adjacency sets; it always answers when the recursion limit admits as many nested calls as there are nodes, and otherwise can only fail with RecursionError (which does happen on long acyclic chains, for any limit).", "quantifier": "all finite graphs, all iteration orders", "why_tests_cant": "All graphs.", "anchors": ["src/lionherd_core/base/graph.py:Graph.is_acyclic"]}
{"id": "C20", "title": "topological_sort is correct and complete", "statement": "topological_sort returns a permutation of all nodes in which every edge goes forward only if the graph is acyclic, raises ValueError only if it is not, and can otherwise only fail with RecursionError when there are more nodes than the recursion limit.", "quantifier": "all finite graphs, all iteration orders", "why_tests_cant": "All graphs.", "anchors": ["src/lionherd_core/base/graph.py:Graph.topological_sort"]}
{"id": "C21", "title": "find_path is sound, complete and shortest", "statement": "find_path returns a list of stored edges forming a walk from start to end of minimal length among walks of condition-satisfying edges, None iff no such walk exists, [] iff start==end, NotFoundError iff an endpoint is missing.", "quantifier": "all finite graphs, endpoints, edge conditions, iteration orders", "why_tests_cant": "All graphs; minimality is universal.", "anchors": ["src/lionherd_core/base/graph.py:Graph.find_path"]}
{"id": "C22", "title": "Graphs built from data: well-formed data is kept exactly, dangling edges are accepted and stuck", "statement": "A Graph constructed or deserialised from nodes and edges with unique ids and stored endpoints holds exactly these and behaves as one built by add_node/add_edge. Edges with a missing endpoint are not rejected: such an edge is kept, remove_edge on it always raises KeyError and leaves it stored, and a graph with an edge from a stored node to a missing one is never reported acyclic nor sorted even when it has no cycle; get_successors and get_predecessors of a stored node raise NotFoundError exactly if a missing node is among the neighbours.", "quantifier": "all node/edge collections", "why_tests_cant": "Needs arbitrary input data.", "anchors": ["src/lionherd_core/base/graph.py:Graph._rebuild_adjacency", "src/lionherd_core/base/graph.py:Graph.from_dict"]}
{"id": "C23", "title": "Event runs at most once under any schedule", "statement": "However many concurrent invoke() calls are issued and however they interleave, the underlying operation is started at most once, and each call made after completion is a no-op.", "quantifier": "all numbers of callers and schedules", "why_tests_cant": "Schedule quantifier.", "anchors": ["src/lionherd_core/base/event.py:Event.invoke"]}
{"id": "C24", "title": "Event status transitions", "statement": "Invoking a PENDING event ends COMPLETED with the response and no error when the operation returns; CANCELLED, retryable, with a timeout error when the deadline passes; CANCELLED, retryable, re-raising, when it is cancelled; FAILED with that error when it raises any other Exception. The duration is always recorded, a single error's own retryable flag is used, and an event that is not PENDING is never changed by invoke. (A builtin TimeoutError raised by the operation itself is reported as a timeout and replaced.)", "quantifier": "all prior states, all operation outcomes", "why_tests_cant": "All outcomes incl. exception groups of any nesting.", "anchors": ["src/lionherd_core/base/event.py:Event.invoke"]}
{"id": "C25", "title": "Event retryability of exception groups", "statement": "A failing exception group is recorded as retryable exactly when none of its direct members is a lionherd error marked non-retryable; for groups without nested groups this says exactly whether all its errors are retryable. (Nested groups are not searched: a non-retryable error one level down is missed.) A failure outside Exception and cancellation, including a group with a cancellation in it, propagates and leaves the event PROCESSING for good.", "quantifier": "all exception trees", "why_tests_cant": "Arbitrary nesting.", "anchors": ["src/lionherd_core/base/event.py:Event.invoke"]}
{"id": "C26", "title": "Priority queue returns minima and conserves items", "statement": "Starting empty, after any history of put_nowait/get_nowait, get returns a minimum of the stored multiset and the stored multiset is exactly puts minus gets.", "quantifier": "all histories, all totally preordered items", "why_tests_cant": "Heap shape depends on history.", "anchors": ["src/lionherd_core/libs/concurrency/_priority_queue.py:PriorityQueue.put_nowait", "src/lionherd_core/libs/concurrency/_priority_queue.py:PriorityQueue.get_nowait"]}
{"id": "C27", "title": "Priority queue bound and blocking semantics under concurrency", "statement": "Under any interleaving of blocking and non-blocking producers and consumers, cancelled at any point: with maxsize>0 the queue never holds more than maxsize items; the items of completed puts are exactly the items of completed gets plus those stored; a get returns a minimum of what is stored at that moment; a non-blocking call fails, and a blocking one waits, exactly when the queue is full (put) or empty (get).", "quantifier": "all task counts, calls, schedules and cancellations", "why_tests_cant": "Schedule quantifier.", "anchors": ["src/lionherd_core/libs/concurrency/_priority_queue.py:PriorityQueue.put", "src/lionherd_core/libs/concurrency/_priority_queue.py:PriorityQueue.get"]}
{"id": "C28", "title": "Wakeups in the priority queue", "statement": "Tasks that are not cancelled always come to rest within a bounded number of steps. If the queue is unbounded, or nobody makes a blocking put, then at rest no getter is blocked while the queue holds an item; if nobody makes a blocking get, then at rest no putter is blocked while there is room. With a bound and both sides blocking this fails: there is a schedule of two getters and two putters on a queue with one place after which a putter stays blocked although the queue is empty.", "quantifier": "all task counts, calls and schedules without cancellation", "why_tests_cant": "Deadlock needs a specific schedule; its absence needs all of them.", "anchors": ["src/lionherd_core/libs/concurrency/_priority_queue.py:PriorityQueue.put", "src/lionherd_core/libs/concurrency/_priority_queue.py:PriorityQueue.get", "src/lionherd_core/libs/concurrency/_primitives.py:Condition"]}
{"id": "C29", "title": "Processor queue stays within its limit", "statement": "enqueue raises QueueFullError exactly when the queue holds max_queue_size entries or more when it is called, and then queues nothing. If at every moment at most w calls are between that check and their put (or between taking an entry and putting it back), the queue never holds more than max_queue_size - 1 + w entries; in particular non-overlapping calls keep it within max_queue_size. (Overlapping calls can exceed it.)", "quantifier": "all interleavings of append / enqueue / start / process / stop / cleanup, permission answers and limits", "why_tests_cant": "Histories and schedules.", "anchors": ["src/lionherd_core/base/processor.py:Processor.enqueue", "src/lionherd_core/base/processor.py:Processor.process"]}
{"id": "C30", "title": "Every event is in exactly one status progression", "statement": "Under every interleaving of append (of events not in status PROCESSING already), start, forward, stop and cleanup of events that are neither pending nor processing, each stored event occurs in exactly one of the seven status progressions and exactly once, they contain nothing else, the status counts sum to the number of events, and get_events_by_status never raises; an event listed as completed, failed, cancelled or skipped has that status, and a non-streaming one listed as processing is being run. (Cleaning up events while they are processed breaks it; an event appended in status PROCESSING is never run and listed as processing for good.)", "quantifier": "all interleavings", "why_tests_cant": "Invariant over histories.", "anchors": ["src/lionherd_core/base/processor.py:Executor._update_progression", "src/lionherd_core/base/processor.py:Executor.append", "src/lionherd_core/base/processor.py:Executor.cleanup_events", "src/lionherd_core/base/processor.py:Executor.status_counts"]}
{"id": "C31", "title": "Three denials in a row abort an event", "statement": "As long as the denial tracker holds fewer than max_denial_tracking entries: an event denied for the first or second time in a row is re-queued with its priority value increased by that count, the third denial in a row moves it to the aborted progression and out of the queue, and its count starts afresh; no event is denied more than three times in a row. The tracker never exceeds max(1, max_denial_tracking). (With a full tracker the count is evicted: an event can be denied any number of times and stay queued.)", "quantifier": "all denial sequences, interleavings, queue contents and tracker limits", "why_tests_cant": "Unbounded denial sequences.", "anchors": ["src/lionherd_core/base/processor.py:Processor.process"]}
{"id": "C32", "title": "process() respects capacity and concurrency", "statement": "At most concurrency_limit events run simultaneously under any schedule of any calls. If process() calls do not overlap, each starts at most queue_capacity events and the full capacity is available again afterwards. Each takes an entry of smallest priority value. No event is started while it is already under way or still queued. (Overlapping process() calls can start more than queue_capacity events.)", "quantifier": "all queue contents, permission answers, schedules", "why_tests_cant": "Schedules.", "anchors": ["src/lionherd_core/base/processor.py:Processor.process", "src/lionherd_core/base/processor.py:Processor.__init__"]}
{"id": "C33", "title": "Pending events of a started executor are on their way", "statement": "In normal use every event listed as pending in a started executor is queued or held by a call in progress, or some call raised while it had it to enqueue, or it is a streaming event whose stream ended leaving it pending; so if no call raised, every non-streaming event is waiting, being run, or at rest in a final progression. (When append or start raises QueueFullError the event stays pending and nothing ever queues it.)", "quantifier": "all interleavings", "why_tests_cant": "Histories.", "anchors": ["src/lionherd_core/base/processor.py:Executor.append", "src/lionherd_core/base/processor.py:Executor.start"]}
{"id": "C34", "title": "Broadcast reaches the live subscribers", "statement": "For callbacks compared by identity (functions, or instances without their own ==) and not also subscribed through one of their bound methods: a broadcast that returns has called exactly the callbacks subscribed and alive when it started, each once, in subscription order, whatever is subscribed, unsubscribed or collected meanwhile and whichever of them raise an Exception; subscribe is idempotent and unsubscribe stops delivery for plain callbacks; get_subscriber_count is their number; a wrong event type raises ValueError and calls nothing. Each subscribe of a bound method adds a delivery and unsubscribe never removes one. (A BaseException ends the broadcast; equal callables are mixed up; classes that do not define their own list share one.)", "quantifier": "all histories of subscribe / unsubscribe / garbage collection / overlapping broadcasts, all callback outcomes", "why_tests_cant": "Histories with garbage collection and overlapping broadcasts.", "anchors": ["src/lionherd_core/base/broadcaster.py:Broadcaster.subscribe", "src/lionherd_core/base/broadcaster.py:Broadcaster.unsubscribe", "src/lionherd_core/base/broadcaster.py:Broadcaster.broadcast", "src/lionherd_core/base/broadcaster.py:Broadcaster.get_subscriber_count"]}
{"id": "C35", "title": "EventBus delivery", "statement": "emit(topic) starts the awaitable of each live handler of that topic once per subscription, in order, and of no other topic's handlers; handlers end independently and emit returns exactly when all have ended, whatever they raise. If the call of some handler itself raises, emit raises that and starts none. unsubscribe removes exactly one subscription and returns whether it did; handler_count is the number of live subscriptions; topics() lists the topics subscribed to since they were last cleared, including every topic with a live handler. (It also lists topics whose handlers are gone.)", "quantifier": "all histories of subscribe / unsubscribe / clear / garbage collection / overlapping emissions, all handler outcomes", "why_tests_cant": "Histories with garbage collection and overlapping emissions.", "anchors": ["src/lionherd_core/base/eventbus.py:EventBus.emit", "src/lionherd_core/base/eventbus.py:EventBus.unsubscribe", "src/lionherd_core/base/eventbus.py:EventBus.handler_count", "src/lionherd_core/base/eventbus.py:EventBus.topics"]}
{"id": "C36", "title": "gather preserves order and loses no error", "statement": "gather(*aws) returns one result per awaitable, at its own position, for any completion order; with return_exceptions every failure is placed at its own position; without, any failure makes it raise one group of exactly the failures (in the order they happened), after all awaitables have ended. (An awaitable that raises a cancellation by itself makes gather return exceptions among the results.)", "quantifier": "all numbers of awaitables, outcomes and completion orders", "why_tests_cant": "All interleavings and outcomes.", "anchors": ["src/lionherd_core/libs/concurrency/_patterns.py:gather"]}
{"id": "C37", "title": "bounded_map bounds concurrency and preserves order", "statement": "bounded_map(f, items, limit) never has more than limit calls running, in any schedule, calls f at most once per item and exactly once if it returns, returns results in input order (or raises the group of all failures), never loses a slot, and refuses limits below 1.", "quantifier": "all item lists, limits, outcomes and schedules", "why_tests_cant": "Schedules.", "anchors": ["src/lionherd_core/libs/concurrency/_patterns.py:bounded_map"]}
{"id": "C38", "title": "retry attempt count, delays and deadline", "statement": "retry calls the function until the first success, at most max(1, attempts) times, sleeps once between two attempts for min(max_delay, base*2^(k-1)) times 1+random*jitter, never after the last attempt, re-raises the last retryable error and immediately re-raises others; under a deadline it starts no call after it and re-raises the last error. (The jitter can exceed max_delay; with a float base_delay the 1025th failure raises OverflowError.)", "quantifier": "all outcome sequences, attempts, delays, random numbers and clock readings", "why_tests_cant": "Outcome sequences.", "anchors": ["src/lionherd_core/libs/concurrency/_patterns.py:retry"]}
{"id": "C39", "title": "CompletionStream yields each result once", "statement": "Iterating a completion stream yields (index, result) of the awaitables that succeeded, each once, in completion order, withholding none while nothing failed and the caller is not cancelled, and stops by itself exactly after all of them; at most limit run at a time; leaving the block waits for everything started, never gets stuck, and raises exactly the failures as one group, with the error of the block itself, if it raised one, in its place among them; a cancellation of the caller is raised if there are none. (A block that raises cancels the rest, but breaking out cancels nothing; a failure hides results not yet read.)", "quantifier": "all completion orders, limits, outcomes and consumer behaviours", "why_tests_cant": "Schedules.", "anchors": ["src/lionherd_core/libs/concurrency/_patterns.py:CompletionStream"]}
{"id": "C40", "title": "alcall: attempts, order and defaults", "statement": "alcall (before its output options) returns one output per input in input order for any completion order; each item is called at most 1+max(0,retry_attempts) times, stopping at the first success or non-Exception, with pauses delay*backoff^(k-1); a default is used exactly when all attempts fail, otherwise the last error is recorded or raised in one group; at most max_concurrent items run at a time, and exactly a negative max_concurrent is refused, with ValueError. No slot is wasted: a waiting item can start whenever fewer than max_concurrent items run, and always if max_concurrent is None or 0; as long as items are left and none runs, one can be spawned or start.", "quantifier": "all inputs, outcome sequences and completion orders", "why_tests_cant": "Outcome sequences.", "anchors": ["src/lionherd_core/ln/_async_call.py:alcall"]}
{"id": "C41", "title": "bcall batches partition the input", "statement": "For a positive batch size the concatenation of the batches handled by bcall is the (flattened, none-dropped) input in order, every batch except possibly the last has exactly batch_size items and none is empty; the k-th yielded value is the result of the k-th batch and a failing batch is the last one handled. (A batch size of 0 raises ValueError, a negative one silently drops the input.)", "quantifier": "all inputs, batch sizes and batch outcomes", "why_tests_cant": "All sizes.", "anchors": ["src/lionherd_core/ln/_async_call.py:bcall"]}
{"id": "C42", "title": "Levenshtein distance is the edit distance", "statement": "levenshtein_distance(a,b) equals the minimum number of single-character insertions, deletions and substitutions turning a into b; hence it is zero exactly on equal strings, symmetric, satisfies the triangle inequality, and lies between the length difference and the longer length.", "quantifier": "all pairs of strings", "why_tests_cant": "Minimality over all edit scripts.", "anchors": ["src/lionherd_core/libs/string_handlers/_string_similarity.py:levenshtein_distance"]}
{"id": "C43", "title": "Similarity scores are proper scores", "statement": "hamming, jaro, jaro_winkler, levenshtein and cosine similarities lie in [0,1] and equal 1 on identical non-empty strings; hamming, levenshtein and cosine are symmetric; levenshtein similarity is 1 only for equal strings; hamming is the share of agreeing positions; jaro_winkler is at least jaro and refuses exactly scalings outside [0, 1/4]. (hamming and cosine of two empty strings are 0.)", "quantifier": "all pairs of strings", "why_tests_cant": "All strings.", "anchors": ["src/lionherd_core/libs/string_handlers/_string_similarity.py"]}
{"id": "C44", "title": "string_similarity selects the matches above threshold", "statement": "With return_most_similar the result is a candidate with maximal score among those reaching the threshold (first on ties), None iff none reaches it; otherwise, case-insensitively, the result lists exactly the candidates reaching the threshold by descending score, then position; with case_sensitive only those tied with the best score. It raises exactly when there are no candidates or the threshold is outside [0,1].", "quantifier": "all words, candidate lists, score functions and thresholds", "why_tests_cant": "All candidate lists.", "anchors": ["src/lionherd_core/libs/string_handlers/_string_similarity.py:string_similarity"]}
{"id": "C45", "title": "fuzzy_match_keys never invents or conflates values", "statement": "There is an injective pairing of non-expected input keys with absent expected keys, each reaching the threshold and leaving no matching pair unmatched, such that: exactly matching keys keep their value, paired values move to their expected key, unmatched input keys are kept ('ignore','fill'), dropped ('remove','force') or refused ('raise'), absent expected keys are filled under 'fill' and 'force' only, with 'force' the output keys are exactly the expected keys; strict raises iff an expected key stays unmatched. (Which pairing is chosen depends on set iteration order; an expected key that is the empty string is never matched fuzzily.)", "quantifier": "all dictionaries, expected keys, similarity functions, thresholds and set iteration orders", "why_tests_cant": "All dictionaries.", "anchors": ["src/lionherd_core/ln/_fuzzy_match.py:fuzzy_match_keys"]}
{"id": "C46", "title": "to_list flattening and uniqueness", "statement": "to_list(flatten=True) returns exactly the leaves in left-to-right order (without None and undefined under dropna); without flatten the leaves keep their positions and every other container becomes a list; flattening a flattened list changes nothing; with unique and hashable items the result is the first occurrences in order, with an unhashable mapping the first item of each hash, any other unhashable item raises ValueError; unique without flatten raises ValueError; nothing else raises.", "quantifier": "all nested inputs, flag combinations, equality and hash functions", "why_tests_cant": "Arbitrary nesting.", "anchors": ["src/lionherd_core/ln/_to_list.py:to_list"]}
{"id": "C47", "title": "hash_dict is order-insensitive and structural", "statement": "hash_dict gives equal results for values equal up to dict insertion order and set element order, at any nesting depth, when dict keys have different texts and sets hold primitives but no NaN; for plain data (string keys, no bools or whole floats in sets, no custom objects) what is hashed agrees exactly for values that are equal up to these orders, keeping lists, tuples, dicts, sets, frozensets and models apart. (Otherwise {1:v} and {'1':v} collide, {1:a,'1':b} depends on insertion order, equal sets mixing bools and strings and sets of frozensets hash unequally, an object collides with its text, -1 with -2, 0.5 with 2^60 and every other fraction with some whole number; 1 and 1.0 are hashed alike as values but not as keys; two NaNs are never hashed alike, and a set holding one depends on its order.)", "quantifier": "all nested values, element orders and string and tuple hashes", "why_tests_cant": "Arbitrary nesting.", "anchors": ["src/lionherd_core/ln/_hash.py:hash_dict"]}
{"id": "C48", "title": "get_bins partitions indices within the bound", "statement": "The concatenation of the bins is 0..n-1 in order, every bin with more than one element has total length below the bound, the first string of a bin would not have fitted into the previous one, and only the first bin can be empty, exactly when the first string is at least as long as the bound.", "quantifier": "all string lists and bounds", "why_tests_cant": "All lists.", "anchors": ["src/lionherd_core/ln/_utils.py:get_bins"]}
{"id": "C49", "title": "to_num respects bounds and type", "statement": "to_num returns the number meant by its input, which lies within the bounds before conversion: an int result is its truncation, a float result with a precision is a multiple of 10^-p at distance at most half of it, and the result stays within every bound that is itself such a multiple (an integer). It raises TypeError exactly for unsupported inputs, ValueError exactly for texts without a number, bounds violated or NaN as int. (Other bounds can be exceeded after rounding; NaN passes every bound; infinities and huge ints raise OverflowError.)", "quantifier": "all inputs, bounds and precisions", "why_tests_cant": "All rationals.", "anchors": ["src/lionherd_core/libs/string_handlers/_to_num.py:to_num"]}
{"id": "C50", "title": "fix_json_string appends exactly the missing closers", "statement": "When fix_json_string returns, the output is the input followed by the unique sequence of closers that balances the brackets outside string literals; when the input does not end inside a literal or after a backslash, the output is balanced and fixing it again changes nothing; a balanced input is returned unchanged. It raises (ValueError) exactly for the empty text and texts that no suffix balances. (Cut inside a string literal the output is not balanced.)", "quantifier": "all strings", "why_tests_cant": "All strings.", "anchors": ["src/lionherd_core/libs/string_handlers/_fuzzy_json.py:fix_json_string"]}
{"id": "C51", "title": "What minimal_yaml writes", "statement": "minimal_yaml writes its argument, or the value of a text that is JSON, pruned unless drop_empties is off; a text that is not JSON is written as it is. Pruning a container keeps exactly the parts that are not void (None, blank text, containers of void parts), pruned, in order and under their keys; nothing void remains at any depth; apart from sets the non-blank leaves are kept in order under the same keys; pruning twice is pruning once. (So the texts 12 and null are written as a number and as null; a JSON text that holds JSON is parsed once only; a void argument is written.)", "quantifier": "all nested values", "why_tests_cant": "Arbitrary nesting.", "anchors": ["src/lionherd_core/libs/schema_handlers/_minimal_yaml.py:minimal_yaml", "src/lionherd_core/libs/schema_handlers/_minimal_yaml.py:_prune"]}
{"id": "C52", "title": "Function-call argument mapping", "statement": "A call with literal arguments is parsed into its positional arguments under numbered keys and its keywords, the last of a name winning; anything else is refused with ValueError, except that other errors of literal evaluation pass through. map_positional_args assigns positional arguments to parameters in order, keeps keywords and refuses exactly too many positional arguments; together they bind arguments as Python does when no name is bound twice. nest_arguments_by_schema collects under each model-typed field exactly the arguments that are fields of its model and of no earlier one, and keeps all others. (A keyword silently overrides a positional value, repeated keywords are accepted, a keyword starting with _pos_ is taken as positional, a nested group overwrites an explicit argument, Optional[M] fields are not nested.)", "quantifier": "all calls, argument maps, parameter lists and schemas", "why_tests_cant": "All maps.", "anchors": ["src/lionherd_core/libs/schema_handlers/_function_call_parser.py:parse_function_call", "src/lionherd_core/libs/schema_handlers/_function_call_parser.py:map_positional_args", "src/lionherd_core/libs/schema_handlers/_function_call_parser.py:nest_arguments_by_schema"]}
{"id": "C53", "title": "Lexer tokens stand where they say", "statement": "Every token's text stands in the source at its position: the line is one plus the number of newlines before it, the column its offset within its line, plus one on the first line only; tokens come in order without overlapping, names and numbers are maximal, and between tokens only ignorable characters are skipped. (So columns count from one on the first line and from zero on all others.)", "quantifier": "all texts and Unicode character classes", "why_tests_cant": "All texts.", "anchors": ["src/lionherd_core/lndl/lexer.py:Lexer.tokenize", "src/lionherd_core/lndl/lexer.py:Lexer.advance"]}
{"id": "C54", "title": "Lexer is total and ends with one EOF", "statement": "tokenize terminates on every text, the token list ends with its only EOF, and string and negative number tokens only occur between OUT{ and the next closing brace token.", "quantifier": "all texts and Unicode character classes", "why_tests_cant": "Termination over all texts.", "anchors": ["src/lionherd_core/lndl/lexer.py:Lexer.tokenize"]}
{"id": "C55", "title": "String literals round-trip through the lexer", "statement": "Inside an OUT block any spelling of a string with escapes, in either quote, lexes to exactly that string, in particular the spelling that escapes backslashes and quotes; what follows the literal is lexed as if the literal were not there.", "quantifier": "all strings, both quote characters, all texts after it", "why_tests_cant": "All strings.", "anchors": ["src/lionherd_core/lndl/lexer.py:Lexer.read_string"]}
{"id": "C56", "title": "Parser terminates, raises ParseError and keeps aliases unique", "statement": "On every token list that ends in EOF, in particular on the tokens of every text, parse stops with a program whose variable and action aliases are pairwise distinct, or with ParseError, or, only if some number token is not a numeral, with ValueError. (OUT{a: 1.2.3} raises ValueError; on a token list without EOF the parser can loop forever.)", "quantifier": "all token lists and texts", "why_tests_cant": "All streams.", "anchors": ["src/lionherd_core/lndl/parser.py:Parser.parse"]}
{"id": "C57", "title": "Contents come from the first matching tag", "statement": "The content recorded for a variable or action is the trimmed text between the first tag in the whole source that declares the same names (in any spacing) and has a closing tag after it, and the next closing tag. (So it is not always the text between the declaration's own tags: text inside an earlier variable that looks like the tag is taken instead.)", "quantifier": "all sources", "why_tests_cant": "Global vs local search differ only on crafted inputs.", "anchors": ["src/lionherd_core/lndl/parser.py:Parser.parse_lvar", "src/lionherd_core/lndl/parser.py:Parser.parse_lact"]}
{"id": "C58", "title": "Reading a document is faithful", "statement": "A document written from any program - variables and actions with distinct aliases and contents free of < and OUT{, with any such text between, then an OUT block with fields of reference lists, names, booleans, strings in any spelling, integers and decimals in any spacing, then anything - is lexed and parsed to exactly that program. (OUT{ glued to a name is not recognised; OUT{ and an apostrophe inside a content make the parse fail; of repeated fields the last counts.)", "quantifier": "all programs and their spellings", "why_tests_cant": "Round trip over all documents.", "anchors": ["src/lionherd_core/lndl/parser.py:Parser.parse", "src/lionherd_core/lndl/parser.py:Parser.parse_out_block", "src/lionherd_core/lndl/lexer.py:Lexer.tokenize"]}
{"id": "C59", "title": "Resolver only returns declared, allowed, complete outputs", "statement": "Reference resolution succeeds exactly when no name is both a variable and an action, every required spec has an OUT field, and every OUT field has a spec and resolves under it: scalars to the converted value of one variable or literal or to the referenced action, model fields to the validated instance built from declared variables and actions of exactly that model (unvalidated while some field still waits for an action). The result holds exactly these fields in order, and its action table exactly the actions referenced from OUT. Otherwise it raises ValueError or MissingFieldError for the first two kinds of fault, or a group with one error per field that does not resolve. (Of two references for one model field the first is dropped without error; its action stays in the table; null in a text field becomes the text None; validators of scalar specs are not run.)", "quantifier": "all declarations, OUT maps, operables, converters and models", "why_tests_cant": "All inputs.", "anchors": ["src/lionherd_core/lndl/resolver.py:resolve_references_prefixed", "src/lionherd_core/lndl/resolver.py:parse_lndl", "src/lionherd_core/lndl/parser.py:parse_value"]}
{"id": "C60", "title": "Fuzzy name correction is safe", "statement": "A corrected name is always a candidate; an exact candidate is never changed; with threshold 1.0 or more only exact names are accepted; otherwise the result is the candidate at or above the threshold (compared ignoring case) whose score (case-sensitive) exceeds that of every other such candidate by at least 0.05; MissingFieldError is raised exactly when none reaches the threshold, AmbiguousMatchError exactly when the best has a rival within 0.05, ValueError when there are no candidates or the threshold is negative. The order of the candidates does not matter. (A candidate that differs only in case can lose to another.)", "quantifier": "all names, candidate lists, score functions, thresholds", "why_tests_cant": "All names.", "anchors": ["src/lionherd_core/lndl/fuzzy.py:_correct_name"]}
{"id": "C61", "title": "Fuzzy parsing resolves exactly the corrected response", "statement": "In strict mode (threshold 1.0) a response is resolved unchanged if all its model, field and spec names are right and refused with MissingFieldError otherwise. Otherwise the resolver gets the response in which every variable's model and field, every OUT field and every reference is replaced by its correction, and correction errors are raised; a response without misspellings is resolved unchanged under any thresholds; an OUT field is lost only if another is corrected to the same name; with capabilities given only fields among them are returned. (Two misspelled fields corrected to one name silently overwrite each other; an action's model name is corrected only if some variable has the same misspelling.)", "quantifier": "all responses, operables, thresholds and capabilities", "why_tests_cant": "Needs specific combinations.", "anchors": ["src/lionherd_core/lndl/fuzzy.py:parse_lndl_fuzzy"]}
{"id": "C62", "title": "No unexecuted action passes the persistence guard", "statement": "ensure_no_action_calls returns the model itself exactly if no ActionCall occurs at any depth in declared fields, lists, tuples, sets, dict values or nested models; otherwise it raises ValueError showing the places of the first three and the number of the others; anything that is not a model raises AttributeError. Re-validation passes the validator exactly the dumped fields with each waiting top-level call replaced by its result, or raises ValueError if a result is missing; if validation keeps the values, the guard passes afterwards. (Calls in extra fields or other containers are not seen; a nested call that was never executed is turned into plain data by re-validation.)", "quantifier": "all nested values and result maps", "why_tests_cant": "Arbitrary nesting.", "anchors": ["src/lionherd_core/lndl/types.py:ensure_no_action_calls", "src/lionherd_core/lndl/types.py:has_action_calls", "src/lionherd_core/lndl/types.py:revalidate_with_action_results"]}
{"id": "C63", "title": "Params accept their declared fields, depending on the order of first use", "statement": "A parameter class accepts exactly its declared and inherited fields if no base class with fields was used before its own first use, and exactly the fields of one of its base classes otherwise; the answer never changes after the first use. Construction raises ValueError exactly for a field that is not accepted, an ExceptionGroup exactly if the class is strict and an accepted field is absent, and otherwise gives each field its value, default or Unset. (So BcallParams refuses batch_size once AlcallParams was used; a dataclass accepts the field but loses it in to_dict.)", "quantifier": "all class hierarchies, call histories and arguments", "why_tests_cant": "History dependent.", "anchors": ["src/lionherd_core/types/base.py:Params.allowed", "src/lionherd_core/types/base.py:Params.__init__", "src/lionherd_core/types/base.py:Params._validate", "src/lionherd_core/types/base.py:DataClass.allowed"]}
{"id": "C64", "title": "Params.to_dict omits exactly the sentinels", "statement": "to_dict contains exactly the accepted, non-excluded fields whose value is not a sentinel under the class config. with_updates raises ValueError exactly for a field that is not accepted or an invalid copy mode; it sets the named fields, carries over the others that are present (mutable containers copied only if asked, enum members as values if configured) and resets the absent ones to the class default. (So enum members and None can change in fields that were not named.)", "quantifier": "all field maps, configs, histories and copy modes", "why_tests_cant": "All maps.", "anchors": ["src/lionherd_core/types/base.py:Params.to_dict", "src/lionherd_core/types/base.py:Params.with_updates", "src/lionherd_core/types/base.py:DataClass.to_dict"]}
{"id": "C65", "title": "Spec metadata keys are unique and updates are exact", "statement": "Every constructed spec carries the metadata of all sources in order under pairwise distinct keys; construction raises ValueError exactly for a repeated key, a bad name or a bad type, and an ExceptionGroup exactly for two truthy defaults, a factory or validator that cannot be called. with_updates sets the named keys, removes those given a sentinel, keeps the others and the base type, and fails exactly if the result would be invalid. A default value is the default, or what the factory returns; the annotation is the type, a list of it if listable, or None if nullable. (A falsy default next to a factory is accepted, and then every attempt to make a default value fails.)", "quantifier": "all metadata lists and updates", "why_tests_cant": "All lists.", "anchors": ["src/lionherd_core/types/spec.py:CommonMeta.prepare", "src/lionherd_core/types/spec.py:Spec.with_updates", "src/lionherd_core/types/spec.py:Spec.create_default_value", "src/lionherd_core/types/spec.py:Spec.with_default"]}
{"id": "C66", "title": "Operable lookup and filtering", "statement": "An Operable accepts exactly lists of specs with pairwise distinct names; get(name) returns the unique spec with that name; include returns exactly the named specs in the order given and raises ValueError exactly for an unknown name; exclude returns the others in order and ignores unknown names; both together raise ValueError. (An empty include selects everything; two unnamed specs are refused as duplicates.)", "quantifier": "all spec lists", "why_tests_cant": "All lists.", "anchors": ["src/lionherd_core/types/operable.py:Operable"]}
{"id": "C67", "title": "Annotated-type cache is bounded and transparent", "statement": "After every history the cache holds exactly the most recently used distinct keys, as many as the limit allows, so the last used one is never evicted; every answer is the annotation computed for the spec itself or for an equal spec asked about before, so it differs at most in equal types and metadata values. (So True may show as 1; a negative limit makes every call raise KeyError; annotated() ignores listable, unlike annotation.)", "quantifier": "all call histories and limits", "why_tests_cant": "Histories.", "anchors": ["src/lionherd_core/types/spec.py:Spec.annotated", "src/lionherd_core/types/spec.py:Spec.annotation"]}
{"id": "C68", "title": "split_cancellation partitions an exception tree", "statement": "Splitting an exception group into cancellations and the rest loses and duplicates no leaf, puts exactly the cancellations in the first part and exactly the others in the second, keeps their order and the groups above each, and a part is None exactly when it would be empty.", "quantifier": "all exception trees", "why_tests_cant": "Arbitrary nesting.", "anchors": ["src/lionherd_core/libs/concurrency/_errors.py:split_cancellation", "src/lionherd_core/libs/concurrency/_errors.py:non_cancel_subgroup"]}
{"id": "C69", "title": "Element dict round trip in every mode", "statement": "For every mode, format and metadata key that is no field name, a dump holds the id, created_at, the fields and, under the key, the metadata with the class name; it fails exactly with TypeError for metadata or field values that contain an object without JSON form outside python mode, and otherwise with ValueError for datetime format in json mode. from_dict with the matching key, called on the class itself or on a class that can find it by name, returns an element of the same class with the same id, fields and instant of creation, and the same metadata as far as the mode can represent them, without a key lion_class; with a key that does not match, or a class name that cannot be resolved, it raises ValueError. Data load into a class exactly if they have no unknown entry, a readable id and creation time, and each field of the class either loads or is absent and has a default; otherwise the error is ValueError unless a field's validator raises another. (An own entry lion_class is lost; a metadata key that is a field name replaces that field; an element of a class defined inside a function cannot be loaded by Element; a naive ISO string stays naive.)", "quantifier": "all elements, modes, formats and keys", "why_tests_cant": "All metadata.", "anchors": ["src/lionherd_core/base/element.py:Element.to_dict", "src/lionherd_core/base/element.py:Element.from_dict"]}
{"id": "C70", "title": "Pile dict round trip", "statement": "Serialising a coherent pile in any mode and loading it with the matching keys yields the same id, class, fields, instant of creation, progression name and type constraint, and the items with the same ids, classes and fields in the same order; the metadata are the same as far as the mode can represent them, plus the entries lion_class and progression_name. Whatever pile is loaded has distinct ids and only items of allowed classes: data with one more item raise TypeError if it is of no allowed class and, without a constraint, ExistsError exactly if its id is there already. Through Element.from_dict lion_class is removed and every mode works without a key, while Pile.from_dict without the key node_metadata always fails on a db dump. (An empty type constraint comes back as none; an entry progression_name in the metadata becomes the name; with an empty key in db mode the name is lost.)", "quantifier": "all coherent piles, modes, formats and keys", "why_tests_cant": "All piles.", "anchors": ["src/lionherd_core/base/pile.py:Pile.to_dict", "src/lionherd_core/base/pile.py:Pile.from_dict"]}
{"id": "C71", "title": "Node content (de)serialisers are inverse", "statement": "A node loaded by its own class, or by a class whose registry finds it, round-trips in every mode; with a content serializer and deserializer that are inverse it round-trips if loaded by its own class, and the dump holds the serialized content. Loaded by another class the deserializer is applied twice: the node round-trips if the second application changes nothing, and raises ValueError if it fails. A codec that fails is reported as ValueError. (A node of an unregistered class is loaded as the class asked for, and one with the short name of a registered class as that class.)", "quantifier": "all nodes, modes, contents and codec pairs", "why_tests_cant": "All codecs.", "anchors": ["src/lionherd_core/base/node.py:Node.to_dict", "src/lionherd_core/base/node.py:Node.from_dict"]}
{"id": "C72", "title": "Leak tracker reports exactly the live tracked objects", "statement": "After any history of track, untrack, clear and collection of weakly referenceable objects, also if addresses are used again, live() reports exactly one entry for each object that was tracked and since then neither untracked nor collected nor cleared, with the data of its last track; so nothing is reported once every object is gone. track raises TypeError exactly for an object without weak references, but enters it all the same, and the entry outlives the object. Methods and finalizers always finish if no tracked object is collected while the lock is held. (A collection inside a method blocks the thread forever.)", "quantifier": "all histories, address reuse and collection points", "why_tests_cant": "Histories.", "anchors": ["src/lionherd_core/libs/concurrency/_resource_tracker.py:LeakTracker"]}
{"id": "C73", "title": "Nested dict conversion is depth-bounded", "statement": "With recursion, the result at every position reached through mappings, lists and tuples is the value there processed with that many levels less: below the limit nothing is touched; keys, lengths and container kinds are kept; a string above the limit becomes what it parses to, or stays if parsing fails; Enum classes and (if asked) objects become dicts that are processed further; numbers, None and other objects are unchanged. Processing ends for every value, fails only at a set whose elements become unhashable, and then with TypeError. A depth outside 0 to 10 raises ValueError; with suppress, and for the empty string, to_dict never fails; mappings are copied, lists and tuples numbered, sets map to themselves, None gives an empty dict; objects use their first available conversion; the result is a dict unless a string was converted. (So a JSON list as a string gives a list without recursion and a dict with it; a set element can vanish; a parser without the keyword use_enum_values is silently not used inside; a list subclass loses its items when custom types are converted.)", "quantifier": "all nested values, parsers and depth limits", "why_tests_cant": "Arbitrary nesting.", "anchors": ["src/lionherd_core/ln/_to_dict.py:to_dict", "src/lionherd_core/ln/_to_dict.py:_preprocess_recursive", "src/lionherd_core/ln/_to_dict.py:_convert_top_level_to_dict", "src/lionherd_core/ln/_to_dict.py:_object_to_mapping_like"]}
{"id": "C74", "title": "as_fresh_event gives a retryable copy", "statement": "as_fresh_event returns an event with the new id, PENDING and unset execution, the same timeout and fields, the metadata (if asked for) plus a record of the original's id and time; invoking it runs the operation whatever became of the original. (The streaming flag is not carried over.)", "quantifier": "all events in all states", "why_tests_cant": "All states.", "anchors": ["src/lionherd_core/base/event.py:Event.as_fresh_event"]}
{"id": "C75", "title": "add_error keeps every error in order", "statement": "After adding an error the recorded errors are those recorded before, in order, followed by the new one; it raises TypeError exactly when a non-Exception would have to be grouped; two or more plain errors added one by one form one flat group.", "quantifier": "all recorded errors and sequences of additions", "why_tests_cant": "Sequences.", "anchors": ["src/lionherd_core/base/event.py:Execution.add_error"]}
{"id": "C76", "title": "Exception groups serialize faithfully up to the depth limit", "statement": "The serialized error of an execution shows every leaf exception in its place below the messages of its groups, for all trees with at most 101 nested groups, shared subgroups included. (Deeper errors are cut off.)", "quantifier": "all exception trees", "why_tests_cant": "Arbitrary nesting and sharing.", "anchors": ["src/lionherd_core/base/event.py:Execution.to_dict", "src/lionherd_core/base/event.py:Execution._serialize_exception_group"]}
{"id": "C77", "title": "race returns the outcome of the first to end", "statement": "race(*aws) returns or raises exactly the outcome of the awaitable that ended first, whatever the others do, and only after all of them have ended; if the caller is cancelled meanwhile it raises the cancellation, also after all of them; it is never stuck while one can proceed; an empty race raises ValueError.", "quantifier": "all numbers of awaitables, outcomes and interleavings", "why_tests_cant": "Interleavings.", "anchors": ["src/lionherd_core/libs/concurrency/_patterns.py:race"]}
{"id": "C78", "title": "fuzzy_json returns the first parse that works", "statement": "A text that is valid JSON is returned as parsed if it is a dict or a list of dicts and refused with TypeError otherwise; in general the result is the parse of the text, else of its cleaned form, else of the cleaned form plus the missing closing brackets; ValueError is raised only if all of these fail to parse or the text is blank.", "quantifier": "all texts and JSON parsers", "why_tests_cant": "All strings.", "anchors": ["src/lionherd_core/libs/string_handlers/_fuzzy_json.py:fuzzy_json"]}
{"id": "C79", "title": "Attributes of an output are its fields", "statement": "For every name other than the five of the output itself, attribute access gives the field of that name and raises KeyError exactly when there is none, like item access. (So hasattr, copy and pickle fail with KeyError; a field named like one of the five is found by item access only.)", "quantifier": "all outputs and names", "why_tests_cant": "All names.", "anchors": ["src/lionherd_core/lndl/types.py:LNDLOutput"]}
{"id": "C80", "title": "Calling a parameter object uses the stored parameters", "statement": "The keyword arguments of a call are the present fields with the entries of kwargs and then kw merged in, overridden by the arguments of the call. (BcallParams passes batch_size twice: its stored batch size never reaches bcall.)", "quantifier": "all parameter objects, histories and call arguments", "why_tests_cant": "All maps.", "anchors": ["src/lionherd_core/types/base.py:Params.default_kw", "src/lionherd_core/ln/_async_call.py:AlcallParams", "src/lionherd_core/ln/_async_call.py:BcallParams", "src/lionherd_core/ln/_to_list.py:ToListParams"]}
{"id": "C81", "title": "Pydantic models mirror their specs", "statement": "create_model makes exactly one field for each selected named spec, in order, on top of the other fields of the base class, with the annotation of the spec, its default or factory (None if nullable without one), its pydantic parameters unchanged and its other metadata as json_schema_extra, and one validator for each spec that has one; it fails only if the selection fails, if a spec has both a default and a factory, or for metadata after a json_schema_extra that is no dict. (Metadata before an own json_schema_extra is lost; a callable default is called by the field but not by the spec.)", "quantifier": "all spec lists, selections and base classes", "why_tests_cant": "All lists.", "anchors": ["src/lionherd_core/types/spec_adapters/pydantic_field.py:PydanticSpecAdapter.create_field", "src/lionherd_core/types/spec_adapters/pydantic_field.py:PydanticSpecAdapter.create_model"]}
{"id": "C82", "title": "Graph and flow dict round trip", "statement": "A graph dumped in any mode and loaded with matching keys has the same id, class, fields and instant of creation, its metadata with the class name added, and its node and edge piles restored; in db mode loading fails unless node_metadata is passed as the item key. A flow round-trips through Flow.from_dict and Element.from_dict exactly if its metadata are stored under metadata; with any other key, and in db mode by default, loading always fails. Items and progressions may also be given as lists of their dumps, and come back in order; an entry that is no dict is a TypeError, a repeated id an ExistsError, an entry that fails to load makes the flow fail with its error. A flow loads exactly if its own data, items and progressions load and the progressions refer to items only. (So writer and reader defaults do not fit in db mode.)", "quantifier": "all graphs and flows, modes, formats and keys", "why_tests_cant": "All graphs.", "anchors": ["src/lionherd_core/base/graph.py:Graph.to_dict", "src/lionherd_core/base/graph.py:Graph.from_dict", "src/lionherd_core/base/flow.py:Flow.to_dict"]}
{"id": "C83", "title": "lcall calls the function once per item, in order", "statement": "Given one function (or an iterable of exactly one), lcall calls it with the items of the argument in order, each once, and stops at the first call that fails; without options the result is the list of results in order. An InterruptedError gives the results so far, any other error is passed on. With input_flatten or input_dropna the items are those of to_list, and nothing is called if that fails; with output options the result is to_list of the plain results, with the same calls, unless the loop was interrupted. No single function, or output_unique alone, is a ValueError before any call. alcall takes the same items except that a model is one item. (So input_unique alone does nothing, an interrupted loop is not post-processed, and a text is split into characters.)", "quantifier": "all arguments, functions with any history-dependent results, and options", "why_tests_cant": "Arbitrary inputs and functions.", "anchors": ["src/lionherd_core/ln/_list_call.py:lcall", "src/lionherd_core/ln/_async_call.py:alcall"]}
{"id": "C84", "title": "extract_json parses the text, or else its fenced blocks", "statement": "Every text has exactly one list of json-fenced blocks: each opens at the first opening fence and ends at the next fence, whitespace around it removed, and the next is looked for behind it. extract_json never fails on a text: if the whole text parses, that is the result; otherwise the results of the blocks that parse, in order, or, for a single block if asked for, its result alone. A list of texts counts as their lines; anything else that does not parse is a TypeError. JSON in one fence with fence-free text around it is always found. (So a text without JSON looks like an empty list, a fence inside a JSON string cuts the block, and of two blocks with one valid a list comes back.)", "quantifier": "all texts and parsers", "why_tests_cant": "All texts; regular-expression backtracking.", "anchors": ["src/lionherd_core/libs/string_handlers/_extract_json.py:extract_json"]}
{"id": "C85", "title": "Fuzzy validation shows the model only its own fields", "statement": "fuzzy_validate_pydantic returns an instance of the model as it is. Without key matching it accepts a dict, or the JSON in a text, exactly if the model does, and fails only with ValidationError. With default key matching the model sees only its own fields, each with the value of that key or of one similar key that is no field, no key used twice; otherwise it can only fail with TypeError for data that are no dict or bad parameters, and ValueError with own parameters. fuzzy_validate_mapping matches the keys of the dict in the text, of the first dict of a list or of the first valid block, and of the converted value; None is a TypeError and what is no dict a ValueError unless suppressed. (A text without JSON is TypeError for key matching, and an empty dict for mappings although errors are not suppressed; a model without fields gets all keys.)", "quantifier": "all inputs, models, similarity scores and set orders", "why_tests_cant": "Arbitrary inputs, models and orders.", "anchors": ["src/lionherd_core/ln/_fuzzy_validate.py:fuzzy_validate_pydantic", "src/lionherd_core/ln/_fuzzy_validate.py:fuzzy_validate_mapping"]}
{"id": "C86", "title": "validate_response asks the model about the matched response", "statement": "For a response with one JSON object (or a list of one), the model is asked about its fields, the similar keys renamed and, unless strict, the remaining keys, and its answer is the result; strict refuses leftover keys with ValueError and passes errors on. Otherwise ValueError, TypeError, KeyError and AttributeError become None. A response without JSON, with a bare value, or with several values gives None, or TypeError if strict. update_model asks the model about the dumped data with the updates put in. (Other errors of validators come through.)", "quantifier": "all responses, models, similarity scores", "why_tests_cant": "Arbitrary texts and models.", "anchors": ["src/lionherd_core/types/spec_adapters/_protocol.py:SpecAdapter.validate_response", "src/lionherd_core/types/spec_adapters/_protocol.py:SpecAdapter.update_model", "src/lionherd_core/types/spec_adapters/pydantic_field.py:PydanticSpecAdapter.fuzzy_match_fields"]}
{"id": "C87", "title": "The JSON default uses the first matching serialiser, whatever it was asked before", "statement": "Every answer of a default() callable built by get_orjson_default depends on the object alone. The types asked are the module's (unless the caller replaces them with extend_default=False), then the caller's in their order, without those orjson writes itself; the first that the object's class is a subclass of and that has a serialiser decides, the caller's serialiser for a type replacing the module's. Otherwise model_dump(), then dict(), if they succeed, then the fallback: TypeError, or with safe_fallback the type and message of an exception, or the clipped repr, which keeps short texts of single-spaced words. (So a serialiser for a type that is not listed is never used, a subclass of Path is written with str whatever the caller lists, and a fallback_clip below 12 makes every fallback raise.)", "quantifier": "all class trees, configurations and sequences of objects", "why_tests_cant": "All call histories and configurations.", "anchors": ["src/lionherd_core/ln/_json_dump.py:get_orjson_default", "src/lionherd_core/ln/_json_dump.py:json_dumps"]}
{"id": "C88", "title": "Deterministic sets are sorted by class name and normalised text", "statement": "With deterministic_sets a set is written as its members ordered by class name and then text, memory addresses in the text not counting; if no two members agree in both, the result is the same for every iteration order. Members that agree stay in iteration order. (So sets of objects with default texts are not deterministic.)", "quantifier": "all sets, class names and texts", "why_tests_cant": "All iteration orders.", "anchors": ["src/lionherd_core/ln/_json_dump.py:json_dumps", "src/lionherd_core/ln/_json_dump.py:_stable_sorted_iterable"]}
{"id": "C89", "title": "NDJSON streams have one line per item", "statement": "make_options sets exactly the bits of the options asked for. Without indentation in the options, json_lines_iter yields for each item, in order, its JSON under the same options and a newline, no line containing another newline; at the first item that fails the stream ends with its error. (Options given as a number replace all flags; indentation among them breaks the lines.)", "quantifier": "all option sets and item sequences", "why_tests_cant": "All flag combinations and streams.", "anchors": ["src/lionherd_core/ln/_json_dump.py:json_lines_iter", "src/lionherd_core/ln/_json_dump.py:make_options", "src/lionherd_core/ln/_json_dump.py:json_dumpb"]}
{"id": "C90", "title": "typescript_schema describes every property on a line of its own", "statement": "typescript_schema gives one line per property in order: indentation, name, a question mark exactly if the property is not required or admits null (an enum with null, an anyOf with type null, or a type ending in a question mark), the type, the default and the description. The type is the literals of an enum, the alternatives of anyOf in order and null last, the item type and brackets, the last part of a reference, or the simple type. It fails, with TypeError, exactly if a property has no such type. (A list of types is such a TypeError; booleans are Python's in enums; nested arrays and enums in array alternatives lose their item type; a newline in a description looks like a property.)", "quantifier": "all schemas", "why_tests_cant": "Arbitrary schemas.", "anchors": ["src/lionherd_core/libs/schema_handlers/_typescript.py:typescript_schema"]}
{"id": "C91", "title": "Embeddings are lists of floats, and finite ones survive every format", "statement": "A node accepts as embedding exactly None and non-empty lists of numbers (bools count), given as a list or as the JSON text of one, and holds their floats in order. Anything else is a ValueError, except that an integer no float can hold is an OverflowError. What to_dict writes, in every mode and embedding format, is accepted again and gives the same embedding if all its floats are finite; with infinities or NaN it is a ValueError, unless it was dumped in python mode without a format. (So an empty list and the text null are refused; python mode ignores the format; a context given together with a format keeps that format for later calls.)", "quantifier": "all embeddings, modes, formats and contexts", "why_tests_cant": "Arbitrary values and formats.", "anchors": ["src/lionherd_core/base/node.py:Node._validate_embedding", "src/lionherd_core/base/node.py:Node._serialize_embedding", "src/lionherd_core/base/node.py:Node.to_dict"]}
{"id": "C92", "title": "Content is kept or loaded by the class it names, the last one defined with that name", "statement": "A node keeps as content None, models, serialisable objects and dicts that name no class in their metadata. A dict that names one is loaded: as a node if a node class is known under that name or its last part, else as an element. Other values are a TypeError; a dict whose metadata is not a dict, or whose class is neither empty nor a text, an AttributeError or TypeError. The class of a name is the last one defined with that module and name, and if there is none the last one in any module with the same last part. So a class that is not nested and not defined again is found by the name its nodes are written with. (A nested class writes its qualified name, and may be loaded as another class of the same short name.)", "quantifier": "all contents and sequences of class definitions", "why_tests_cant": "All orders of class definitions.", "anchors": ["src/lionherd_core/base/node.py:Node._validate_content", "src/lionherd_core/base/node.py:Node.__pydantic_init_subclass__", "src/lionherd_core/base/node.py:Node.from_dict"]}
{"id": "C93", "title": "acreate_path names a free path, makes only directories and reserves nothing", "statement": "acreate_path returns the directory, the part of the file name before its last slash, and the last part with time stamp, random digits and the extension (the file name's own if it has a dot, else the one asked for); a backslash in the last part is a ValueError. A returned path has an existing parent directory, and unless file_exist_ok nothing is there; without dir_exist_ok the parent is new. Whatever the outcome, what existed is unchanged and everything new is a directory on the way to the path. The call succeeds if no file is in the way and existing directories and files are permitted or absent. A file name not beginning with a slash, without parts .. and not ending in ... stays in the directory. (So other names leave the directory; directories stay when the call fails; two calls without the file being made in between return the same path.)", "quantifier": "all directories, file names, options, file systems and timeouts", "why_tests_cant": "All file systems and names.", "anchors": ["src/lionherd_core/ln/_utils.py:acreate_path"]}
{"id": "C94", "title": "The loose texts that fuzzy_json repairs", "statement": "A text of a JSON value with strings and keys in single or double quotes, keys without quotes, trailing commas and any whitespace between its parts and around it is cleaned to strict JSON of the same value, and fuzzy_json answers as for that value, if: strings have no quotes, apostrophes, backslashes or control characters, no whitespace but single spaces, and not both a comma or opening brace and a colon or closing bracket; keys without quotes are words without punctuation, whitespace or a quote follows their colon, and whitespace precedes them behind a comma and in a dict that is (first in) an element of a list. (Otherwise not: compact keys give another dict, double spaces in strings another string, and a list of two dicts with keys without quotes is refused.)", "quantifier": "all values, texts and sets of whitespace characters", "why_tests_cant": "All texts of a grammar.", "anchors": ["src/lionherd_core/libs/string_handlers/_fuzzy_json.py:_clean_json_string", "src/lionherd_core/libs/string_handlers/_fuzzy_json.py:fuzzy_json"]}
{"id": "C95", "title": "Timeouts nest, raise only when over, and change nothing otherwise", "statement": "A program under fail_after, move_on_after, fail_at or move_on_at with a deadline and without shields in it ends by the deadline (or at once if it is past) plus the blocking work it does, whatever inner timeouts it has and exceptions it catches. If it ends before the deadline, it ends exactly as without the timeout; without a deadline always. TimeoutError comes only from fail_after and fail_at and not before their deadline; a cancellation leaves a timeout only if an enclosing one is over or cancelled. Inside shield a program runs as if there were no timeouts around and is not cancelled. A number from effective_deadline is a bound on unshielded programs, and in a new timeout the minimum of the deadlines. (Work without awaiting is never interrupted and makes fail_after raise nothing, even past the deadline; cancelling the scope of fail_after by hand raises nothing; effective_deadline is None also when the time is over.)", "quantifier": "all programs of work, waits, cancellations, try/except, nested timeouts and shields, all times", "why_tests_cant": "All nestings and timings.", "anchors": ["src/lionherd_core/libs/concurrency/_cancel.py:fail_after", "src/lionherd_core/libs/concurrency/_cancel.py:fail_at", "src/lionherd_core/libs/concurrency/_cancel.py:effective_deadline", "src/lionherd_core/libs/concurrency/_errors.py:shield"]}
{"id": "C96", "title": "The asynchronous queue is first in, first out, bounded, and loses nothing until it is closed", "statement": "However puts, gets, their _nowait forms, cancellations of waiting calls and the two steps of close interleave: items are received in the order of their puts, by gets in the order of their calls, each at most once; puts return in order; a put that fails (full, cancelled, closed) leaves nothing behind and a get that fails takes nothing. At most maxsize items are ever stored. A put waits only if the queue is full; a get waits only if everything put has been received and the queue is open. put_nowait fails exactly if the queue is full and no get waits, get_nowait exactly if there is nothing. After close no call waits, every call fails at once. Between its two steps gets drain what is there, in order, including puts that wait, then see the end of the stream. (Closing throws away what is still stored, though its puts have returned; a close cancelled midway leaves puts waiting.)", "quantifier": "all sequences of operations, all sizes", "why_tests_cant": "All interleavings.", "anchors": ["src/lionherd_core/libs/concurrency/_primitives.py:Queue"]}
{"id": "C97", "title": "Creation times survive the timestamp format until 2242, and every input names its moment", "statement": "For an aware created_at until the year 2242 (2^33 seconds from 1970, both directions), what to_dict gives with created_at_format timestamp, a binary float, is read back as the same microsecond; later times come back within 15 microseconds. Given to Element, a datetime keeps its clock and is taken as UTC if it has no offset; an int is that many seconds since 1970 in UTC, a float the same to the nearest microsecond, a text in ISO format what it says. Errors are ValueError unless the number is astronomical. (The last microsecond of 9999 cannot be read back; a text in ISO format without offset stays without offset, unlike a datetime; a date of eight digits such as 20240101 is taken for seconds, a day in 1970; the text inf raises OverflowError.)", "quantifier": "all times, numbers and texts", "why_tests_cant": "All 2^53 roundings.", "anchors": ["src/lionherd_core/base/_utils.py:coerce_created_at", "src/lionherd_core/base/element.py:Element.to_dict"]}
{"id": "C98", "title": "Equal HashableModels have equal hashes, and what is hashed is their fields", "statement": "For HashableModels with plain field values (keys texts, sets without bools and whole floats, no frozensets and no custom objects) equality implies equal hashes, so a set or dict finds a model if it holds an equal one. What is hashed is exactly the fields that are no sentinels, by name, up to the order of dicts and sets. to_dict in python mode gives exactly the requested fields that are no sentinels, and from_dict gives the model back if sentinel fields have that sentinel as default. (Models of different classes, or with different sentinels, share hashes though they are not equal; a set equals a frozenset, {1: v} equals {True: v}, Decimal 1.0 equals 1.00, but such models are hashed differently; appending to a list of a frozen model changes its hash; in json mode include and exclude are ignored; other sentinels are lost.)", "quantifier": "all models", "why_tests_cant": "All values.", "anchors": ["src/lionherd_core/types/model.py:HashableModel.__hash__", "src/lionherd_core/types/model.py:HashableModel.to_dict", "src/lionherd_core/types/model.py:HashableModel.from_dict"]}
{"id": "C99", "title": "Loading a type by name gives the type first found under that name", "statement": "In a process, load_type_from_string(name) returns the type that the first successful call with that name found; it succeeds if and only if this call or an earlier one with the same name found MODULE.NAME to be a type of an importable module; failures and calls with other names have no effect. The full class name of a top-level class leads back to the class, that of a parametrised class to the generic class; that of a nested class is looked up in a module and fails. Errors are ValueError, except TypeError for relative module names and unhashable arguments and whatever other exception the imported module raises. extract_types gives exactly the types mentioned, each once. (The documented error is not the only one; after a reload the old class is returned.)", "quantifier": "all names, all sequences of calls and all changes of the modules between them", "why_tests_cant": "All histories.", "anchors": ["src/lionherd_core/base/_utils.py:load_type_from_string", "src/lionherd_core/base/_utils.py:extract_types", "src/lionherd_core/base/element.py:Element.class_name"]}
{"id": "C100", "title": "A graph shared by threads: mutators act one after the other, queries may see halves", "statement": "In every interleaving of threads, the finished add_node, remove_node, add_edge and remove_edge calls gave the answers, and led to the nodes and edges, that calling them one after the other in the order of their ends gives; whenever none is under way the graph and its adjacency indexes are exactly that; at most one is under way and every call can finish. A query during which the graph does not change answers correctly; otherwise it answers only nodes, and ends of edges, that were there at some moment of the call, or raises NotFoundError or RuntimeError. (So queries on a graph that is being changed do fail: get_successors of a node that stays raises NotFoundError or RuntimeError, get_heads raises RuntimeError, is_acyclic raises KeyError while a node is being added, and a half-added edge has a successor but no predecessor.)", "quantifier": "all interleavings of any number of threads", "why_tests_cant": "All schedules.", "anchors": ["src/lionherd_core/base/graph.py:Graph.add_node", "src/lionherd_core/base/graph.py:Graph.remove_node", "src/lionherd_core/base/graph.py:Graph.add_edge", "src/lionherd_core/base/graph.py:Graph.remove_edge", "src/lionherd_core/base/graph.py:Graph.get_predecessors", "src/lionherd_core/base/graph.py:Graph.get_heads", "src/lionherd_core/base/_utils.py:synchronized"]}
{"id": "C101", "title": "A flow shared by threads: names stay unique and findable; references only without remove_item", "statement": "In every interleaving of threads calling add_progression, remove_progression, get_progression, add_item and remove_item on one flow, at every moment no two stored items have one id, no two held progressions have one id and no two have one name. Whenever no progression method is under way, get_progression by a name answers the held progression of that name, by an id the one of that id, and raises KeyError resp. NotFoundError exactly if there is none. A call during which no other thread moves, made in any state that interleavings lead to while nobody is inside a progression method, ends, answers or raises exactly what the method does without threads and leaves the flow so. If threads call only the three progression methods, their answers, in the order in which the calls end, are those of the calls made one after the other without threads, and so is the flow whenever nobody is inside one. A thread inside a progression method leaves it within four steps. As long as no thread calls remove_item, held progressions list only stored items at every moment. (remove_item takes no lock: concurrently with add_progression, with add_item, or with remove_progression, all calls succeeding, it leaves a progression that lists an item that is gone; it can raise KeyError though the item is stored, or ValueError.)", "quantifier": "all interleavings of any number of threads", "why_tests_cant": "All schedules.", "anchors": ["src/lionherd_core/base/flow.py:Flow.add_progression", "src/lionherd_core/base/flow.py:Flow.remove_progression", "src/lionherd_core/base/flow.py:Flow.get_progression", "src/lionherd_core/base/flow.py:Flow.add_item", "src/lionherd_core/base/flow.py:Flow.remove_item", "src/lionherd_core/base/_utils.py:synchronized"]}
{"id": "C102", "title": "A class decorated with implements defines the public members of its protocols in its own body", "statement": "@implements(p, ...) accepts a class exactly if for every public method, property, classmethod or staticmethod that one of the protocols has, itself or by inheritance, the class's own body has a definition or an annotation of that name: inherited definitions do not count. Otherwise it raises TypeError, naming the first protocol that is not met and its alphabetically first missing member. An accepted class is unchanged except that __protocols__ is exactly the declared protocols, which undecorated subclasses inherit. (Members whose names start with an underscore are not checked: Hashable and Containable accept every class, so a class declared Containable need not support 'in'. A bare annotation or a value like None is accepted for a method.)", "quantifier": "all classes, protocols and inheritance chains", "why_tests_cant": "All class bodies.", "anchors": ["src/lionherd_core/protocols.py:implements"]}
{"id": "C103", "title": "Similarity scores stay proper scores in floating point", "statement": "Computed in IEEE binary64, for texts below 2^53 characters: hamming, jaro, jaro_winkler (for every accepted scaling), levenshtein and cosine return a finite float x with 0.0 <= x <= 1.0; a non-empty text scores exactly 1.0 with itself, and levenshtein scores 1.0 only for equal texts; jaro_winkler is at least jaro, and raises ValueError exactly for scalings that are not between 0 and 0.25 (NaN included); hamming, levenshtein and cosine are symmetric. hamming is within 2^-54, levenshtein within 2^-53 and jaro within 2^-52 of the exact score, and hamming and levenshtein order pairs of texts as the exact scores do, ties included. (jaro does not: bcde and bbcdef have the same exact score 8/9 with abcdef but different floats. A score can fall below a threshold that the exact score meets: 1 - 9/10.)", "quantifier": "all pairs of texts, all scalings", "why_tests_cant": "All strings and all roundings.", "anchors": ["src/lionherd_core/libs/string_handlers/_string_similarity.py"]}
{"id": "C104", "title": "to_num in floating point: nearest value, bounds checked on it", "statement": "In IEEE binary64: to_num turns its argument into the float nearest to the number given (a Decimal or text beyond all floats into an infinity; such an int raises OverflowError), and checks the bounds, exactly, on that float: a returned float without precision is that float and within the bounds, a returned int is that float cut towards zero. A number within float bounds is never refused. Ints up to 2^53 are returned unchanged, and exactly if within int bounds. With a precision p from -308 to 323 the result is the float nearest to a multiple of 10^-p that is at most half of it away from the checked float, and it stays within every float bound that rounding to p digits leaves unchanged and every int bound up to 2^53 (p >= 0). TypeError is raised exactly for other types, ValueError exactly for texts without number, bounds that the float violates, NaN as int. (Ints beyond 2^53 are changed silently, and their bounds are checked after the change: 2^53+1 passes the upper bound 2^53, 2^54-1 is refused for the upper bound 2^54-1; the text 0.99999999999999999 becomes the int 1; 2.675 with two digits becomes 2.67.)", "quantifier": "all inputs, bounds and precisions", "why_tests_cant": "All numbers and all roundings.", "anchors": ["src/lionherd_core/libs/string_handlers/_to_num.py:to_num"]}
{"id": "C105", "title": "Sync and async callables are called alike", "statement": "For functions, bound methods and partials of them (partials of methods of partials, nested), is_coro_func is True exactly for async def functions; whatever is_coro_func accepts gives a coroutine for all arguments. For such callables one call by alcall and one delivery by broadcast run the body exactly once, with the arguments that the partials and methods supply, and end as the body does, whether the function is sync or async; broadcast logs Exceptions and passes other BaseExceptions on. run_sync calls the function with exactly the arguments given, unless one is a keyword argument named func. run_async returns the result and raises the Exceptions of the coroutine. (An object with an async __call__ is not recognised: alcall returns coroutines that were never awaited, and broadcast silently does not run the handler. Unhashable callable objects are never called. With a keyword argument named func, alcall raises TypeError for sync functions only. run_async returns None if the coroutine ends with a BaseException such as CancelledError or SystemExit.)", "quantifier": "all callables, arguments and outcomes", "why_tests_cant": "All nestings of partials and methods.", "anchors": ["src/lionherd_core/libs/concurrency/_utils.py:is_coro_func", "src/lionherd_core/libs/concurrency/_utils.py:run_sync", "src/lionherd_core/libs/concurrency/_run_async.py:run_async", "src/lionherd_core/ln/_async_call.py:alcall", "src/lionherd_core/base/broadcaster.py:broadcast"]}
{"id": "C106", "title": "retry's delays and deadline test in floating point", "statement": "In binary64 (int arguments of any size, float arguments finite, base_delay >= 0): without jitter the k-th delay is exactly min(max_delay, base_delay*2^(k-1)), with no rounding and no effect of an overflowing product, so delays never shrink and never exceed max_delay, and they equal the exact ones of C38. With jitter a delay is at least the one without and at most (delay)*(1+jitter) as floats, and differs from the exact formula by at most one part in 2^50 (for delays of at least 2^-1000 s). Computing a delay fails exactly from the 1025th failure on if base_delay is a float, and never if it is an int and max_delay and jitter are floats. The test deadline - now <= 0 is true exactly if the deadline has passed. (With jitter a delay can exceed max_delay, can be shorter than the one before, and can reach delay*(1+jitter) although the random number is below 1.)", "quantifier": "all ints and finite floats, random numbers in [0, 1) and attempts", "why_tests_cant": "All floats.", "anchors": ["src/lionherd_core/libs/concurrency/_patterns.py:retry"]}
{"id": "C107", "title": "Which class a JSON schema is turned into, and which errors", "statement": "load_pydantic_model_from_schema looks for a class named like the schema's title reduced to ASCII letters, digits and underscores if that starts with a letter, and like model_name, unchanged, otherwise. It succeeds exactly if the schema can be read, the generator writes a file that can be imported, and the module's attribute with that name, or if there is none its attribute Model, is a pydantic model class that can be rebuilt; that class is returned. Every failure has the exception stated: ImportError without the generator or a module spec, ValueError for a dict or string that cannot be serialised or parsed, TypeError for other schemas and attributes that are no model classes, AttributeError without an attribute or for JSON text that is no object, FileNotFoundError and RuntimeError from the later steps; before generation nothing is written. The file generated lies directly in the temporary directory if the name comes from the title or model_name has no slash. (The class can be pydantic's own BaseModel, a module with a class Model can be refused, a keyword passes as a name, and an absolute model_name puts the file elsewhere.)", "quantifier": "all schemas, titles, names, generators, modules and pydantic outcomes", "why_tests_cant": "All titles and module contents.", "anchors": ["src/lionherd_core/libs/schema_handlers/_schema_to_model.py:load_pydantic_model_from_schema", "src/lionherd_core/libs/schema_handlers/_schema_to_model.py:_sanitize_model_name"]}
{"id": "C108", "title": "Sentinels keep their identity", "statement": "In all threads and interleavings, calling UndefinedType, and copying, deep-copying or unpickling Undefined gives Undefined itself, and likewise Unset; is_sentinel (without flags) is true for these two objects only. For every class derived from SingletonType: copies are the object itself; once its instance exists and no thread is still creating one, all calls give that instance; a call never gives an instance of another class; and if a single thread calls it, all calls give the same object. (Two threads that make the first call at the same time can get two objects; unpickling an instance of a subclass of UndefinedType gives Undefined, and of a class without __reduce__ a second instance.)", "quantifier": "all numbers of threads, interleavings, classes and operation sequences", "why_tests_cant": "All interleavings.", "anchors": ["src/lionherd_core/types/_sentinel.py:_SingletonMeta", "src/lionherd_core/types/_sentinel.py:is_sentinel"]}
{"id": "C109", "title": "async with a pile: exclusive, isolated, fair, and free of deadlock if ordered", "statement": "At most one task is inside a pile's async with block and never twice. While it is, no other task that uses the pile inside its blocks only touches it, so over any stretch of a block the content is what that block's own operations make of it. A task that enters a pile it is already inside of gets an error and leaves all its blocks; a task that is cancelled, waiting or inside, leaves the queue or passes the lock on. Waiting tasks enter in the order in which they started to wait. If tasks leave their blocks and open nested piles in increasing order, some task can go on without error until all have finished. (Uses outside of blocks, by tasks or plain method calls, are not kept out; opening two piles in opposite orders can deadlock.)", "quantifier": "all numbers of tasks and piles, programs, contents, interleavings and cancellations", "why_tests_cant": "All interleavings.", "anchors": ["src/lionherd_core/base/pile.py:Pile.__aenter__", "src/lionherd_core/base/pile.py:Pile.__aexit__", "src/lionherd_core/libs/concurrency/_primitives.py:Lock"]}
{"id": "C110", "title": "execute() runs until stop(), then ends without new work", "statement": "Without stop(), no execute() returns and is_stopped() is false. After stop(), as long as start() and execute() are not called again and none is under way, is_stopped() stays true, no loop begins another process(), loops leave queue and events alone, and each loop returns at most three of its steps after its running process() has ended, with execution_mode off. stop() sets is_stopped() and forgets the denials; start() and the begin of execute() clear it; nothing else changes it. With one uncancelled execute(), execution_mode is on exactly from its begin to its return. (A stop() before execute() is forgotten; stop() followed by start() before the loop checks goes unnoticed; execution_mode stays on after a cancelled execute() and can be off while another one runs.)", "quantifier": "all histories of appends, permissions, outcomes, stop, start, execute, forward and cancellation, all interleavings", "why_tests_cant": "All interleavings.", "anchors": ["src/lionherd_core/base/processor.py:Processor.execute", "src/lionherd_core/base/processor.py:Processor.stop", "src/lionherd_core/base/processor.py:Processor.start"]}
{"id": "C111", "title": "Sequence-matcher similarity", "statement": "sequence_matcher_similarity(a, b) is 2n / (len(a) + len(b)), 1 for two empty texts, for the total length n of blocks of equal text in the same order in both, so n is the length of a common subsequence; one block is at least as long as any common substring, and between blocks the texts share no character, apart from characters that make up more than one percent of a second text of 200 or more. The score lies between 0 and 1; it is 1 exactly for equal texts; if b has less than 200 characters it is 0 exactly if nothing is shared. (It is not symmetric, the common subsequence need not be a longest one, and a text of 200 equal characters scores 0 against itself with one more in front.)", "quantifier": "all texts", "why_tests_cant": "All pairs of texts.", "anchors": ["src/lionherd_core/libs/string_handlers/_string_similarity.py:sequence_matcher_similarity"]}
{"id": "C112", "title": "Equality and hashes of metadata, specs, parameter objects and elements", "statement": "Two Metas are equal if they have one key and one callable, or equal values not both callable; their hash never fails, and equal Metas, and equal Specs made of them, have equal hashes if the values are both callable, both hashable, or neither and print the same. Objects of subclasses of Params and DataClass decorated with @dataclass are equal exactly if they are of one class and agree in all fields. Equal Params objects have equal hashes; the hash raises TypeError exactly if a field holds an unhashable value. Such DataClass objects have no hash. Elements are equal exactly if they have one id, and then have equal hashes. (Equal Metas and Specs with dicts in different order have different hashes; equality of Metas is not transitive if a callable equals a number; equality and hash by content as documented for Params and DataClass are never used by classes with fields: objects with the same to_dict can differ, and AlcallParams with kw has no hash.)", "quantifier": "all values, class hierarchies and field values", "why_tests_cant": "All values.", "anchors": ["src/lionherd_core/types/base.py:Meta.__hash__", "src/lionherd_core/types/base.py:Meta.__eq__", "src/lionherd_core/types/base.py:Params.__eq__", "src/lionherd_core/types/base.py:Params.__hash__", "src/lionherd_core/types/base.py:DataClass.__eq__", "src/lionherd_core/types/base.py:DataClass.__hash__", "src/lionherd_core/types/spec.py:Spec", "src/lionherd_core/base/element.py:Element.__eq__", "src/lionherd_core/base/element.py:Element.__hash__"]}
{"id": "C113", "title": "Tasks on the asynchronous queue: what ends a wait, and what the task then returns", "statement": "Tasks that call put, get, put_nowait, get_nowait and close of one queue run step by step and can be cancelled at every suspension. Only a get, a close or its own cancellation ends the wait of a put; only a put, a close or its own cancellation that of a get. An item handed to a waiting get belongs to that task alone, no cancellation takes it away, and its next step returns it; no item is returned twice, and each task gets items in the order of the puts. An item whose put returned was handed out or is in the buffer; one whose put failed or was cancelled is never handed out. Handed-out items and then waiting ones are the puts not given up, in order. The buffer never exceeds maxsize (a negative maxsize is refused). Once a task's close returned, both ends are closed, no task waits, every put and get raises ClosedResourceError, puts that waited raise BrokenResourceError and nothing is handed out any more. (So closing does not let consumers drain the queue; and a close cancelled half-way leaves waiting puts waiting.)", "quantifier": "all maxsizes, tasks, and interleavings of calls, steps and cancellations", "why_tests_cant": "All interleavings.", "anchors": ["src/lionherd_core/libs/concurrency/_primitives.py:Queue", "src/lionherd_core/libs/concurrency/_primitives.py:Queue.put", "src/lionherd_core/libs/concurrency/_primitives.py:Queue.get", "src/lionherd_core/libs/concurrency/_primitives.py:Queue.close", "src/lionherd_core/libs/concurrency/_primitives.py:Queue.with_maxsize"]}
{"id": "C114", "title": "What executions and errors report", "statement": "Execution.to_dict never raises an Exception, whatever the response: it has its five entries; a missing response, duration, error or retryable is None; a response that can be dumped as JSON, or is of a simple type, appears as it is, another one as its dictionary form if that can be dumped, else as the text <unserializable>. So the reported response can be dumped unless it is of a simple type (bytes, integers beyond 64 bits) and cannot. A LionherdError has the given message unless it is empty, the given retryable flag, and otherwise the defaults of the most derived class that sets them; of the built-in errors exactly ExecutionError, ConnectionError, TimeoutError and QueueFullError are retryable by default. Its dictionary determines class name, message, details and flag, and has details exactly if there are some. (A report with bytes as response cannot be dumped, although responses are checked for that.)", "quantifier": "all responses, error classes and arguments", "why_tests_cant": "All values and class hierarchies.", "anchors": ["src/lionherd_core/base/event.py:Execution.to_dict", "src/lionherd_core/base/_utils.py:get_json_serializable", "src/lionherd_core/errors.py:LionherdError", "src/lionherd_core/errors.py:LionherdError.to_dict"]}
{"id": "C115", "title": "A process() call that is cut short leaves a consistent but possibly unusable executor", "statement": "When a process() or forward() call is cut short - its caller is cancelled or times out, request_permission raises, or an operation raises the cancellation - the call still ends only after every event it started, never gets stuck, and keeps no concurrency slot; it raises the cancellation or, if request_permission raised, an exception group, and returns normally if only an operation raised the cancellation; every event stays listed under exactly one status, and one listed as completed, failed, cancelled or skipped has that status. The available capacity falls by one per event started and comes back in full only when a call that started something ends without raising; it stays between zero and queue_capacity unless calls overlap. But once it is used up while no call is under way - one timeout around forward() with queue_capacity 1 is enough - the processor never starts an event again, whatever is done. An event the call had taken from the queue, or had not yet filed, stays listed as pending or processing for ever with the status it had: appending it again raises and no call looks at it. An operation that raises the cancellation takes the events started with it along although process() returns normally.", "quantifier": "all histories of appends, permissions, outcomes, interruptions, failures and clean-ups, all interleavings", "why_tests_cant": "All interleavings and all points of interruption.", "anchors": ["src/lionherd_core/base/processor.py:Processor.process", "src/lionherd_core/base/processor.py:Processor._with_semaphore", "src/lionherd_core/base/processor.py:Executor._update_progression", "src/lionherd_core/base/processor.py:Executor.forward"]}
{"id": "C116", "title": "Parameters of a processor", "statement": "Processor(...) / Processor.create(...) succeeds exactly when queue_capacity is in [1, 10000], capacity_refresh_time in [0.01, 3600], concurrency_limit, max_queue_size and max_denial_tracking are at least 1 (infinity included for the latter two), and concurrency_limit is an int; NaN is accepted for each of the other four. A non-integer concurrency_limit with everything else in bounds is a TypeError, anything else a ValueError. With a capacity c that is a number every process() starts the next ceil(c) events of the queue, at least one, and has the full capacity again afterwards, so n calls start the first n*ceil(c) events; with NaN as capacity no process() ever starts an event. The queue takes ceil(max_queue_size) events and refuses further ones; with infinity or NaN it takes all. Executor.start() with refused parameters raises and leaves the executor unstarted, each time; with accepted ones it queues as many pending events as the queue takes, raising QueueFullError if that is not all of them, and then no later start() queues the others.", "quantifier": "all ints and floats, NaN and infinities included, for the five parameters, all queues, all numbers of calls", "why_tests_cant": "The boundaries of five parameters under Python's comparisons, and what an accepted odd value (a fraction, NaN) does to all later batches, are not covered by testing a few values.", "anchors": ["src/lionherd_core/base/processor.py:Processor.__init__", "src/lionherd_core/base/processor.py:Processor.enqueue", "src/lionherd_core/base/processor.py:Processor.process", "src/lionherd_core/base/processor.py:Executor.start"]}
{"id": "C117", "title": "An execute() loop that is cancelled or fails", "statement": "A call of Processor.execute() returns only after stop() was called, and switches execution_mode off then; it never sets the stop flag itself. execution_mode is off before the first execute(). It raises only because its task was cancelled or request_permission raised inside it - an operation that fails or raises the cancellation does not end the loop - and what it raises is the cancellation or an exception group. While it is inside process() a cancelled execute(), or one in which request_permission raised, makes no further process() call and can only raise, which it can always do without waiting for anybody else. A raising execute() changes neither execution_mode nor the stop flag: execution_mode stays on until a later execute() returns, so it does not tell whether a loop is running. Once every execute() has ended and no process() call is under way, queued events stay queued and no event changes until execute() or forward() is called. Calling execute() again after a cancellation need not help: one cancellation with queue_capacity 1 can leave a processor on which no later execute() ever starts an event.", "quantifier": "all histories of appends, permissions, outcomes, cancellations and failures, any number of execute() calls, all interleavings", "why_tests_cant": "All points at which the loop can be cancelled and everything that can happen afterwards.", "anchors": ["src/lionherd_core/base/processor.py:Processor.execute", "src/lionherd_core/base/processor.py:Processor.process", "src/lionherd_core/base/processor.py:Processor.start", "src/lionherd_core/base/processor.py:Processor.stop"]}
{"id": "C118", "title": "Calls on an executor end, and forward() drains the queue", "statement": "Without new calls only finitely many things can happen after any history, whatever is answered and however events end; and whenever nothing more can happen every append, start and forward has returned or raised and every event started is filed under its status, except that process() calls that overlapped may be left waiting at an empty queue. A forward() call made while no other is under way is never left waiting: it is over exactly when nothing more can happen, and granting permissions and letting operations end always gets there. With every permission granted, n such calls one after the other shorten the queue by n*queue_capacity, down to nothing; with any answers, three calls per queued event empty it as long as fewer than max_denial_tracking events are queued or tracked. With the queue empty and no call having raised, every plain event has been run or aborted, and one not aborted is listed under its status. (Two overlapping process() calls over one queued event: one of them waits until another event is queued.)", "quantifier": "all histories, interleavings, permission answers, outcomes, queue contents and limits", "why_tests_cant": "Termination and progress of every schedule, from every reachable state.", "anchors": ["src/lionherd_core/base/processor.py:Processor.process", "src/lionherd_core/base/processor.py:Executor.forward", "src/lionherd_core/base/processor.py:Executor.start", "src/lionherd_core/base/processor.py:Executor.append", "src/lionherd_core/base/processor.py:Processor._with_semaphore"]}
{"id": "C119", "title": "Semaphore: slots, order and cancellation", "statement": "A Semaphore(n) of the concurrency package used through async with lets at most n tasks into their blocks at a time, whatever is cancelled; the slots free, in use or on their way to a task are always n (plus one per release() called outside of a block); nobody waits while a slot is free; slots are handed out in the order of the calls, and a call that is k-th in line gets its slot by the k-th release at the latest unless it is cancelled; a call cancelled in line or after it was handed a slot takes no slot with it. A negative n is refused. (Not so: a release() too many lets n+1 tasks in; a task that enters twice can wait for itself for ever.)", "quantifier": "for all n, all numbers of tasks and all interleavings of entering, leaving, waking, cancelling and releasing", "why_tests_cant": "the bound and the order must hold for every interleaving and every moment of cancellation", "anchors": ["src/lionherd_core/libs/concurrency/_primitives.py:Semaphore"]}
{"id": "C120", "title": "JSON texts: elements and nodes come back, containers come back empty", "statement": "The data in the text of to_json() of an element or node are those of to_dict(mode=json), and from_json gives back an element of the same class with the same id, creation time, fields, and metadata as far as JSON can hold them. The text of a Pile does not depend on its items or on the name of its order, and every pile read from it is empty; otherwise it is the pile that was written. Every Graph or Flow read from the text of one has no nodes, edges, items or progressions. (Not so for containers: that the text holds what to_dict(mode=json) gives, and that from_json undoes to_json.)", "quantifier": "for all elements, nodes, piles, graphs and flows whose own fields survive their serialisers", "why_tests_cant": "the loss is silent and concerns every container; tests round-trip containers through to_dict only", "anchors": ["src/lionherd_core/base/element.py:Element.to_json", "src/lionherd_core/base/element.py:Element.from_json", "src/lionherd_core/base/pile.py:Pile.to_dict", "src/lionherd_core/base/graph.py:Graph.to_dict", "src/lionherd_core/base/flow.py:Flow.to_dict"]}
{"id": "C121", "title": "Attributes of events under assignment", "statement": "Whatever is assigned to the attributes of an event, in any order, its id and creation time stay, and its timeout is None or a positive finite number, as it is when the event is created; a refused assignment raises ValueError (AttributeError for read-only properties) and changes nothing, an accepted one changes only what it names; as timeout exactly None and the positive finite numbers (ints, floats, True, texts of numbers) are accepted, so that the timeout of an event can always be given to its fresh copy. Metadata given as a dict are taken if the keys are texts, and refused otherwise; refusals are always ValueErrors; a list that is not empty is refused. (Not so: that what is no metadata is refused - numbers and texts that are no JSON become empty metadata, silently replacing what was there.)", "quantifier": "for all values and all sequences of assignments", "why_tests_cant": "invariants over all histories of assignments and all values, including NaN, infinities and texts", "anchors": ["src/lionherd_core/base/element.py:Element._validate_meta_integrity", "src/lionherd_core/base/event.py:Event._validate_timeout", "src/lionherd_core/base/event.py:Event.status"]}
{"id": "C122", "title": "What cleanup_events removes", "statement": "In every state reached by any interleaving of normal use (append, start, forward, stop, cleanup of events neither pending nor processing), cleanup_events with any list of statuses does not raise: it removes exactly the events listed under one of them from the store, from the progressions and from the denial counts, keeps the order of all others, leaves everything else as it was and returns the number of events removed; doing it again returns 0. An event cleaned away while no call is deciding on it or running it is never run afterwards, whatever is called and however it interleaves, unless it is appended again: its entry in the queue is dropped. (If a progression lists an event that is not stored, cleanup raises NotFoundError and removes nothing under that status; cleaning away events while they are processed leads there, and then even stored completed events cannot be cleaned away any more.)", "quantifier": "all interleavings, all lists of statuses", "why_tests_cant": "Exactness over all reachable states, and what can happen later over all continuations.", "anchors": ["src/lionherd_core/base/processor.py:Executor.cleanup_events", "src/lionherd_core/base/flow.py:Flow.remove_item", "src/lionherd_core/base/processor.py:Processor.process"]}
{"id": "C123", "title": "Finding a path while conditions are awaited", "statement": "find_path gives up control while it awaits the condition of an edge, and other tasks may then change the graph. Whatever they do, as long as an id is never used for two different edges: a path that is returned is a path in the graph as it is at that moment, between stored nodes, and with check_conditions=True every edge on it has been checked and passed; and an exception is one of a condition, NotFoundError, KeyError or RuntimeError. If they add no edge, a None means that every path there now is contains an edge whose condition said no. If they change nothing, the answer is a shortest path over the edges that pass, None exactly if there is none, or the exception of a condition. (None may be returned although the end can be reached at every moment, when edges are added and removed meanwhile; RuntimeError, KeyError and NotFoundError do occur with both ends stored throughout; and if an id is used again for another edge, what is returned need not be a path.)", "quantifier": "all graphs, all node pairs, all conditions and all changes by other tasks while they are awaited", "why_tests_cant": "Depends on what other tasks do at every suspension, over all graphs.", "anchors": ["src/lionherd_core/base/graph.py:Graph.find_path", "src/lionherd_core/base/graph.py:EdgeCondition.apply", "src/lionherd_core/base/graph.py:Edge.check_condition"]}
{"id": "C124", "title": "Lists that change while they are mapped", "statement": "lcall and alcall do not copy a list they are given (unless input_flatten or input_dropna is set) and read it by position. lcall: if the calls leave the list alone, each item is called once in order; if they only append, so is every item there is at the end, and if each call appends it never ends unless a call fails; if each call removes its own item, exactly every other item is called and the rest is left in the list. alcall: without throttle_period the items are those of the list when the calls are started, whatever happens to it later. With it, a returned list always has one entry per item there was at the start; an entry is what the call for the item then taken at its position gave, or None if none was taken. If the list never gets longer, no result is lost and all calls succeeding gives a result; if more items are taken than there were at the start, alcall does not return without return_exceptions, and what it raises comes from calls or is an IndexError. (So with a list that grows and calls that all succeed, it may raise IndexError, or with return_exceptions return only cancellation errors.)", "quantifier": "all lists, all functions that change them, all interleavings", "why_tests_cant": "What is called depends on every intermediate state of the list.", "anchors": ["src/lionherd_core/ln/_list_call.py:lcall", "src/lionherd_core/ln/_async_call.py:alcall"]}
{"id": "C125", "title": "Flows whose parts are used directly", "statement": "flow.items, flow.progressions and the progressions a flow hands out can be used directly as well. However items are added to and removed from flow.items and whatever is done to the orders of held progressions: names stay unique, and get_progression of a name gives the progression carrying it, or KeyError if there is none. Whatever is done, renaming and use of flow.progressions included: a progression that add_progression accepted under a name is found under that name as long as no progression is removed; after remove_progression of a name, also one that raises NotFoundError because the progression is gone, a valid progression of that name can be added; and if no progression lists an id twice, then after remove_item no progression lists the id, also when it raises NotFoundError because the item is gone, and nothing else changes in them. (Renaming a held progression can give two progressions one name; removing the renamed one by its id then makes the other unfindable by its name, and the old name stays taken though nobody carries it. A progression added through flow.progressions is not found by its name, and one removed there keeps its name taken.)", "quantifier": "all histories of operations on the flow and its parts", "why_tests_cant": "The name table follows only the methods of the flow; tests of single methods keep it in step.", "anchors": ["src/lionherd_core/base/flow.py:Flow"]}
{"id": "C126", "title": "Graphs whose piles are used directly", "statement": "graph.nodes and graph.edges have their own add and remove, which the graph does not notice. For a graph built through its methods: however many edges are added to graph.edges, get_node_edges, get_predecessors, get_successors, get_heads, get_tails, is_acyclic, topological_sort and find_path answer exactly as before; remove_edge of such an edge between nodes of the graph leaves the graph as it was. After an edge is removed from graph.edges, the queries that should tell of it raise NotFoundError, and remove_node of either of its ends raises and keeps the node. A node added to graph.nodes has no edges and is neither head nor tail; remove_node of it raises KeyError, and add_edge from or to it raises KeyError after storing the edge. After a node is removed from graph.nodes its edges can be listed and removed as before, get_predecessors and get_successors of its neighbours raise NotFoundError, and once it is added again with add_node it has no edges although they are still stored. A stored edge whose head or tail is assigned stays listed at its old ends only; remove_edge of it succeeds, and then get_successors of its old head, or get_predecessors of its old tail, raises NotFoundError and remove_node of that node raises. After an edge is removed, a node added, or the tail of an edge from another node removed directly, is_acyclic never answers True and topological_sort never gives an order. (So after edges are added directly is_acyclic can answer True for a graph with a cycle, and remove_node can leave edges of the node behind; and after nodes are, a failing add_edge can change the graph.)", "quantifier": "all graphs built by any history, all nodes and edges, all set orders", "why_tests_cant": "The effect shows in later calls of other methods; tests build graphs through the methods only.", "anchors": ["src/lionherd_core/base/graph.py:Graph"]}
{"id": "C127", "title": "The instance of a broadcaster class", "statement": "Calling a broadcaster class always gives an object whose class is the class called or one of its ancestors, also when threads call concurrently. Without threads: with single inheritance every later call of a class gives the same object, whatever other classes are called between; a class that defines its own _instance, or none of whose proper ancestors was called before, gives an object of exactly that class. (If an ancestor was called first, a subclass gives the ancestor's object; with multiple inheritance the object can change when a base class is called; threads can get different objects.)", "quantifier": "all class hierarchies, all histories of calls, all interleavings of the test, the assignment and the read", "why_tests_cant": "Which object is given depends on the order in which the classes of a hierarchy are first called, and on races.", "anchors": ["src/lionherd_core/base/broadcaster.py:Broadcaster"]}
{"id": "C128", "title": "import_module and is_import_installed", "statement": "import_module with names gives their values in the order of the names, and for exactly one name the value itself; a name may be a module inside the package, which is then imported. Without names it gives the first package of the path (not the module asked for, if the path is dotted), with everything on the way imported. It fails only because a module on the path is nowhere (ImportError), because the code of a module raises (that exception), or because a name is missing (AttributeError). Failed or not, it undoes no import, not even of what it imported on the way, and imports nothing but the path and the names, and only what is there. What succeeded gives the same again without running any module. is_import_installed imports the packages around the module and never the module itself; its answer says whether the module is there, but for a dotted name whose package is missing or is no package it raises.", "quantifier": "all worlds of packages and modules, all sets of modules imported before, all paths and lists of names", "why_tests_cant": "The outcome depends on what is installed and on what was imported before.", "anchors": ["src/lionherd_core/ln/_utils.py:import_module", "src/lionherd_core/ln/_utils.py:is_import_installed"]}
