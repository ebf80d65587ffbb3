# Formal model of xitren/patterns

The properties are listed in `properties.jsonl` (C01, C02, ...).  The model and
proofs are in `rocq/theories`.  For each component there are up to four files:

| suffix       | content |
|--------------|---------|
| `*Model.v`   | executable Gallina model of the C++ code, each definition citing file and lines |
| `*Spec.v`    | small specification vocabulary used in the theorem statements |
| `*Proofs*.v` | lemmas |
| `*Props.v`   | property theorems `Cnn_...`, satisfiability examples, `Print Assumptions` |

Conventions.

* Undefined behaviour is a distinct outcome of the model (`UB`), never assumed away.
* Nested calls and loops whose length depends on memory run on fuel; running out
  is the distinct outcome `Fuel`.  Theorems hold for every amount of fuel, and
  termination theorems exclude `Fuel` from a stated amount on.
* User code (callbacks, handlers, checksum and hash functions, object
  representations, clocks, schedulers) is an arbitrary function or an arbitrary
  list of choices, quantified in the theorem.
* Threads interleave at the granularity of single shared accesses (C97: coarser, see
  there); a schedule is a list of agents, and theorems quantify over all of them.  Memory is sequentially
  consistent.
* Where the code does not do what a user would expect, the property is worded as
  what is true: a witness (suffix `_refuted`) together with an exact
  characterisation of when it happens where one was found.

## Plan per property

### allocators/static_heap.hpp (C01-C15, C96-C98, C103, C120, C121, C124, C128, C138), static_heap_allocator.hpp (C16-C18, C101, C133, C136)
Model (`HeapModel.v`): byte-addressed memory `Z -> Z`, 64-bit little-endian
loads/stores that return `UB` outside `uc_heap_` and `x_start_` or when misaligned,
explicit `mod 2^64`, canary XOR on link words, the allocated bit in bit 63.
Functions: constructor, `allocate`, `deallocate`,
`prv_insert_block_into_free_list`, `callocate`, the getters,
`reset_minimum_ever_free_heap_size`, `on_fail`, `v_port_get_heap_stats` (which names the
undeclared `heapPROTECT_BLOCK_POINTER`; read as `heap_protect_block_pointer`).
Spec (`HeapSpec.v`): a client session with a table of held blocks.
Proof: representation invariant between memory and a list of contiguous blocks,
preserved by every operation; the properties follow for all histories by induction.

* C01, C02 disjointness, alignment, bounds, contents: consequences of the invariant
  plus a frame lemma for each operation.
* C03, C04, C07, C15 counters, restoration, low-water mark: functions of the block list.
* C05, C06, C09 first fit, clean failure, huge requests: the search loop against the
  block list; failure leaves memory equal.
* C08 `callocate`: `allocate` of the wrapped product plus the zero fill.
* C10 no `UB` and no `Fuel` for all sessions.
* C11, C12 null and double frees; the stale free is a concrete session (witness).
* C13, C14 construction for every buffer placement and size, with the exact set of
  sizes for which the constructor leaves the buffer.
* C96 (`HeapUseModel.v`) the callback as a program of heap calls run inside the failing
  call; refinement to the plain session in which they come afterwards.
* C97 `allocate` in three steps (search, read the result, take the block) and two
  threads.  The steps are coarser than single accesses, which is enough for the
  witness: every such interleaving is one of the code's.
* C98 the free list against the maximal gaps of the client's table.
* C120 the tiling of the area is determined by the held blocks, hence equal states of the free
  list; C121 by the first-fit specification (C05), counting gaps, and a comb of blocks.
* C124 (`HeapPoolSpec.v`) histories whose requests all round to one size; invariant: every held
  block starts at a grid place and ends at one or at the end of the area; pigeonhole on places.
* C128 (`HeapAlignSpec.v`) by C05 the lowest free place starts at the area's start or at the end of
  a block, so multiples of 16 stay multiples of 16; two neighbours differ by an odd multiple of 16.
* C101 (`AllocatorsModel.v`) numbered heaps and allocator objects; each heap's part of the
  history is a history of that heap.
* C133 (`HeapVecModel.v`) libstdc++'s std::vector on static_heap_allocator (the README's and the
  tests' use): construction, destruction, push_back, pop_back, writing an element, reserve, clear,
  copy assignment; element type trivially copyable, its values are byte strings; any number of
  vectors and other users in one heap.  Invariant: every vector with capacity owns one held block
  of exactly capacity * sizeof(T) bytes; refinement to plain lists.  The vector's own code is part
  of the trusted reading (it is not in /repo); insert/erase in the middle, swap and moves are not modelled.
* C138 (`HeapShareModel.v`) one heap used by threads: a call is a sequence of single accesses to
  the words and counters, in source order, and the accesses of the threads interleave.
  `C138_turns` ties it to `HeapModel.v`.  The schedules of the negative parts are built from runs
  of one thread up to a point; the first thread stops after computing pv_return, or before its
  last write to the free list.  Simplified: reads that only feed config_assert are left out.
* C136 (`HeapListModel.v`) libstdc++'s std::list on the rebound allocator, down to the words: the
  nodes' links are 8-byte words in the heap's buffer, those of the list objects words elsewhere.
  Invariant: the words form a ring through each list object, node by node; every node is one held
  block of exactly the node's size.  Refinement to sequences of (address, value).  The list's own code
  is part of the trusted reading (it is not in /repo); copy, move, swap, sort, splice and merge are
  not modelled (the last two do not compile: the allocator's comparison operators are not const).
* C103 (`HeapCopyModel.v`) the implicit copy constructor: bytes, pointers and counters
  copied as they are; one memory seen by two objects.  The same simulation would serve
  copy assignment, which is not modelled separately (nor is the dangling use of a copy
  after the original has been destroyed).
* C16-C18 allocator adaptor: product `n * sizeof(T)` mod 2^64, equality of addresses.

### comm/observer.hpp (C19-C26, C102, C104-C106, C122, C123, C129, C130), observer_static.hpp (C27)
Model (`ObsArray.v`, `ObserverModel.v`): array of Max slots plus count,
`std::remove` written out with the stale tail it leaves, the `inside` flag, the
`counted(begin,count_)` loop that fixes its bound at entry and re-reads slots.
Callbacks are an arbitrary function from the event history to a program of calls on
the observable.  Dynamic variant: vector with iterator invalidation, exceptions,
optional mutex (relocking by the same thread is `UB`).  Compile-time variant: the
chain of sub-objects.

* C19, C20, C22, C25 refinement to a list without duplicates, read off the event log.
* C21, C23 invariant over the callback interpreter; termination.
* C24 exact outcome of one removal during a notification, and safety of additions.
* C26 re-entry with and without the mutex.
* C27 by induction on the chain.
* C102 (`ObsThreadsModel.v`) threads with stacks of calls, one mutex per observable; one
  step acquires, calls one handler, or releases.  Simplified: destruction of an observable
  is not among the calls, and an exception thrown to a handler is caught in the handler.
* C104, C105 (`ObsNetModel.v`) any number of static observables at addresses; the implicit
  copy operations copy the three members; access to an address without an object is `UB`.
  Simplified: a derived class's own members are not modelled.
* C106 (`ObsLifeModel.v`) adds the set of existing observers; a call that entered one
  outside the set is `UB`.  Simplified: observers begin and end between client calls only.
* C122, C123 (`ObsShareModel.v`) the static observable without a lock, any number of threads:
  one step is one read or write of count_, inside or a slot, in source order, accesses outside
  the array `UB`.  Simplified: interleaving of accesses (such races are undefined in C++
  anyway), `data()` and `disconnect()` return at once.  `C123_alone` ties it to
  `ObserverModel.v`.
* C129, C130 (`ObsThrowModel.v`) both variants with callbacks that may throw and catch; an
  exception reaching a noexcept function is the outcome `TEnd` (std::terminate) with the
  events up to then.  `C129_ends_at_first_throw` ties it to `ObserverModel.v`.

### comm/values/observable.hpp, observed.hpp (C28-C35, C88-C92, C107, C108, C113, C114, C131, C132, C134, C135, C139, C140, C141)
Model (`ValuesModel.v`): integer type = (width, signedness), wrap of atomic
fetch_add, integer promotion and signed overflow as `UB` in the `+ op`
expressions, slots as above, `std::remove` without erase in the dynamic variant.
Concurrent model: any number of threads, each update split into the atomic
read-modify-write and one step per observer.

* C28, C29, C30, C31, C32 invariant relating the value to the mathematical sum of the
  applied operations, and the delivered values to the operators' results.
* C33 the dynamic variant's `remove_observer`, element by element.
* C34, C35 invariants over interleavings; a witness schedule for non-convergence.
* C88 the invariant for arbitrary re-entrant callbacks; C89 divergence by induction on
  fuel; C90 exact outcome of one reacting observer at any position.
* C91 the vector equals the set of those added as long as nothing is removed; C92 the
  unbounded class with re-entrant callbacks: the vector carries a count of iterator
  invalidations (emplace_back, clear) that every round of the range-for checks.
* C107, C108 (`VNetModel.v`) any number of bounded value observables of any types, and
  callbacks that use any of them.  The derived values of C107 are one kind of callback:
  it reads the inputs with value() and assigns the result.  Induction on the nesting.
  Simplified: construction and destruction are left out.
* C113, C114 (`VLifeModel.v`) observables of both kinds and observeds that begin and end at
  any time, also in callbacks.  The statements use a book of what exists and who is listed
  (`VLifeSpec.v`), computed from the events alone, and the innermost call not yet returned;
  the proof is an induction on the nesting with one invariant relating memory and book.
  Simplified: an observable constructed anew at the address of one whose loop is running
  counts as another one; an observed that ends in its own callback uses nothing of itself
  afterwards; type and capacity are fixed for each address.
* C134, C135 (`VShareModel.v`) threads whose steps are the atomic update, each observed's
  store, and the beginning and end of each function, with readers in between.  C134: each
  thread's events are a beginning of its whole operators; one history explains all reads;
  multiset of arguments plus those to come = values published.  C135: invariant of the only
  writer's position.  Simplified: registration and on_update do not change meanwhile (that would
  be a data race); functions do not use the observable; the atomics are sequentially consistent,
  as in the code, which names no other order.
* C139 (`VThrowModel.v`) the machine of C113 with callbacks that may throw; every caller of a
  callback is noexcept, so a throw is an outcome of its own with the events up to then.
  `C139_ends_at_throw` ties it to `VLifeModel.v`: by induction on calls and callbacks the run with
  something else written in place of the throws is the same, or goes on from there with that.
* C140 (`VRegModel.v`) the calls of the class and `on_update` as sequences of single accesses to
  `count_`, `observers_`, the values and `function_`; each call is code, given in continuation
  style, and threads interleave access by access.  A function is in two steps, entered and left;
  replacing it in between is undefined, and calling an empty one ends the program.  `C140_alone`
  ties the code to `ValuesModel.v` for every call.  The other theorems give, from every state a
  single thread can reach, a schedule for what goes wrong, and a data race for every pair of calls
  named.  `touches` says which plain member the next access uses.
* C141 (`VDynModel.v`) the dynamic class with the vector's three pointers and its arrays on the
  heap as in libstdc++ (growth to twice the size, elements copied one by one, the old array freed
  before the pointers are set); reading, writing or freeing a freed array is undefined.  `holds`
  describes the vector between calls; `C141_alone` shows that every single-threaded history keeps
  it, and refines the class to the list of ValuesModel.
* C131, C132 (`FValModel.v`) operands of any integer type or double before the conversion to
  int, and value types float and double, with the arithmetic of the standard library's
  `SpecFloat` (IEEE 754, round to nearest even).  C131 by congruence modulo 2^32; C132 from the
  exactness of addition on integers of at most `f_prec` bits (`FValProofs.v`), which holds for
  every format with 2 <= precision < largest exponent.  Simplified: `FLT_EVAL_METHOD` 0, the
  default rounding mode, a fixed set of observeds.

### comm/mediator.hpp (C36-C42, C93-C95, C109-C111, C126, C127)
Model (`MediatorModel.v`): message types = (name, size); hash an arbitrary
parameter; table of `Sources` slots with `UB` on out-of-range index; receive loops
as written; handlers and the override of manager::data are programs that may send,
construct and destroy modules, throw and catch.  Reading `id_` of a sender that has
been destroyed is undefined behaviour.

* C36, C38 deliveries of a send against the registration order read off the log.
* C37 payload bytes through an arbitrary object representation.
* C39-C41 the table below, at and above its capacity.
* C42 arbitrary (colliding) hashes.
* C93 handlers that construct: the registration list at the end of the send.
* C94 one handler that destroys: exact log, or undefined (destroyed sender).
* C95 exceptions: a prefix of the recipients.
* C109-C111 (`MedNetModel.v`) any number of managers and modules that are constructed,
  copied, assigned and destroyed by the program or by handlers, and modules whose public
  `mediator_` is changed.  The specification keeps a book (`MedNetSpec.v`) of what exists
  and what each manager lists, computed from the completed calls; the tables refine it.
  manager::data may rewrite the message it is shown.  Simplified: no exceptions there.
* C126, C127 (`MedShareModel.v`) one manager used by any number of threads without a lock: one
  step is one read or write of modules_cnt_ or a slot of modules_, or one call of a handler, in
  source order; the slot is read twice per module, as in the source; a module whose own class
  is not constructed yet, or destroyed already, is marked, and a handler called on it is `UB`
  (pure virtual).  Simplified: interleaving of accesses; handlers and data() do not use the
  mediator; the exception of at() counts as `UB`.  `C127_turns` ties it to `MediatorModel.v`.
  Schedules for the negative parts are built from runs of one thread between two points.

### comm/pipeline_stage.hpp (C43-C46, C99, C112, C115, C116, C118, C142), pipeline_stage_pool.hpp (C47-C49, C112, C115-C117, C142)
Model (`PipelineModel.v`): small-step machine; any number of producers; ticket fetch
and slot store are separate steps; worker reads ready flag, increments, reads the
value, calls; destructor.  Statistics window as a pure function.

* C43, C44, C48 invariants over all schedules; C44 witnesses universal in BufferSize.
* C45 race freedom as a happens-before argument on the steps of the machine.
* C46 statistics arithmetic; C47 `min_thread` on a snapshot; C49 queues without worker.
* C99 chained stages (`ChainModel.v`): stage m's function is the only producer of stage
  m+1; the invariant ties what stage m+1 was given to what stage m has processed.
* C112 progress: a rank (steps the worker still needs) that falls with every step of the
  worker while the items asked about are stored; an invariant on filled slots for the
  converse.  Fairness is not assumed: the claims count the worker's steps.
* C115 (`FlowModel.v`) networks: any number of stages and pools; the function of a node is
  any function of all that happened so far and pushes any items into any nodes, in steps that
  interleave with everything else.  A push into a node whose destructor may have returned is
  undefined.  Simplified: the queue min_thread picks is arbitrary, the measurements given to
  functions are left out, functions do not throw.
* C116-C118 (`PoolModel.v`) one stage or pool in detail: min_thread reads tail and head of
  one queue after the other, in either order, while everybody else runs; the statistics and
  the clock; callers of time_for_unit() outside.  Invariant: counters and statistics are what
  the record of events says; for one pushing thread, bounds on what it has seen.  Simplified:
  a computation over the statistics is one interval that begins and ends; clock and counters
  after a call are read at one moment; the counters do not wrap (fewer than 2^64 pushes).
* C142 (`PThrowModel.v`) the machine of C43 with a function that may throw, depending on all
  steps taken before; leaving the function by an exception is an outcome of its own.  The two
  equivalences `C142_goes_on` and `C142_ends` tie it to `PipelineModel.v`; the rest follows with an
  invariant (the calls left did not throw) and C43.

### func/argv_parser.hpp (C50-C56, C137)
Model (`ArgvModel.v`): `std::map` of callbacks, loops as written, stream extraction
of int and string written out for the "C" locale (libstdc++), double conversion an
arbitrary parameter.

* C50-C53 the scan as a fold over argument positions; C54, C55 extraction; C56 indexes.
* C137 one parser object parsing one vector after another: the options are the parser's base
  object, so each call starts from what the call before left (`parses`, `ArgvAgainSpec.v`).

### func/data.hpp (C57-C62, C86), func/packet.hpp (C63-C70, C82, C83, C87)
Model (`DataModel.v`, `PacketModel.v`): values as numbers, memory bytes through a
host endianness parameter, `is_lsb` as written (value conversion), checksum an
arbitrary function, layouts arbitrary, storage bounds explicit, size arithmetic
mod 2^64.

* C57-C61, C86 byte-string algebra; C62 round trip for every layout.
* C63-C65, C83, C87 packet bytes; C66-C70, C82 accessor bounds with exact case splits.

### func/fast_pimpl.hpp (C71-C72), func/interval_event.hpp (C73-C77, C84, C85, C100, C119, C143), cache/lru.hpp (C78-C81, C125)
Models: object-lifetime machine whose user operations may throw; small-step worker
and callers with clock readings as inputs; list plus map for put/get.

* C71 layout arithmetic; C72 lifetime balance over all operation sequences; a
  throwing member of the contained type leaves arbitrary values in the objects it worked on.
* C73, C75-C77, C84, C85, C100 invariants over all schedules (C75 for many threads by
  simulation with one); C74 arithmetic of the checks.
* C119 (`TimersModel.v`) many timers and threads: a function is the list of timers its next
  call stops, given everything recorded so far; all objects exist from the start and are not
  destroyed; `keep_running_.wait` checks, blocks, and checks again when woken or spuriously;
  whether a function is due at a check is up to the schedule.  Returning is by a measure over
  the ranks that falls whenever the thread everything waits for gets a turn; hanging by an
  invariant that no step leaves.
* C143 (`IThrowModel.v`) the machine of C73 with a timer function that may throw, depending on
  all steps taken before; leaving the function by an exception is an outcome of its own, after
  which nothing runs.  `C143_goes_on` and `C143_ends` tie it to `IntervalModel.v`.  Not modelled: an
  exception of the clock, of sleep_for or of the thread's start.
* C78-C81 `lru::put`/`get` do not compile when instantiated
  (`item.template get<0>()`, `auto [value, time]` on a triple, integer compared with
  time_point), so the model gives those expressions the only meaning they can have.
* C125 the recency lists of two sizes run side by side: equal until the smaller is full, then
  one a part of the other; position of a key bounded by the keys put since.

## Trusted base

* The Coq 8.16.1 kernel.  `coqchk -silent -o -Q theories Verif` on all the `*Props`
  modules (which load every other file) reported "Axioms: <none>" and nothing under
  type-in-type, unsafe fixpoints or assumed positivity.  It is run by hand at
  milestones, last with properties C01-C132 in place, and not by the build.
* Axioms: none of our own.  `Print Assumptions` says "Closed under the global
  context" for every theorem listed at the end of this file.  The library
  `Coq.ssr.ssrunder`, loaded by the standard library's own files (through
  `lia`/`Coq.Lists`), declares a module type whose fields show up as parameters of
  that library; no theorem here depends on them.
* The reading of the C++ source that the `*Model.v` files express.  The compiler,
  the standard library and the hardware are not verified; the parts of the standard
  library the code uses are modelled as documented or as libstdc++ does it
  (`std::remove`, `std::erase`, `num_get`, `std::optional`, `std::atomic`).

### Modelled
| file in /repo/include/xitren | model |
|---|---|
| allocators/static_heap.hpp | all members; `v_task_suspend_all`/`x_task_resume_all` are empty there |
| allocators/static_heap_allocator.hpp | allocate, deallocate, ==, != |
| comm/observer.hpp | both `observable` variants, `observer` callbacks |
| comm/observer_static.hpp | the whole chain |
| comm/observer_errors.hpp | the error codes |
| comm/values/observable.hpp, observed.hpp | both variants, the seven operators for integer and floating-point types, value(), add/remove/clear/notify |
| comm/mediator.hpp | type, module, manager: registration, routing, data(), conversion, exceptions |
| comm/pipeline_stage.hpp, pipeline_stage_pool.hpp | push, worker, destructor, statistics, min_thread |
| func/argv_parser.hpp | everything |
| func/data.hpp | swap, lsb_t, msb_t, comparisons, data<T>::serialize/deserialize |
| func/packet.hpp | packet, packet_accessor |
| func/fast_pimpl.hpp | storage checks, constructors, assignments, destructor |
| func/interval_event.hpp | constructor, thread, stop, destructor, period |
| cache/lru.hpp | put, get (evident reading, see above) |

### Not modelled
* `func/log_adapter.hpp`: a concept (compile-time requirement), no behaviour.
* `cache/exceptions.hpp`, `comm/values/pre_def.hpp`: exception class and type aliases.
* `volatile` overloads of `values::observable`: they call a non-volatile member and do
  not compile when used.
* `packet`'s `const` accessors, `crc()` and the array `deserialize`: do not compile
  when instantiated.
* `fast_pimpl`'s variadic constructor competing with the copy constructor for
  non-const lvalues (overload resolution is not modelled; the call is taken to be the
  constructor it names).
* Weak memory: the C++ memory model beyond interleaving, except for the race-freedom
  statements C45, which are about happens-before.
* Time: clock readings are arbitrary non-decreasing inputs; no real-time bounds.
* Overriding `receive()` of a mediator module, which is virtual and public.
* Allocation failure inside std::vector, std::map, std::thread.
* Template instantiation and overload resolution.
* An exception leaving a stage's function: it leaves the worker thread, which ends the
  program (std::terminate).
* A stage with `BufferSize` 0: the positions in the ring are taken modulo the size, so the first
  push divides by zero.
* Replacing a stored `std::function` from inside its own call (`on_update` inside the callback):
  the callable that is running is destroyed.

## Seeded errors

`seeded/LOG.jsonl` records edits of the model made in a scratch copy, each a
plausible bug.  `first_proofs_to_break` names the proofs that no longer compile as
written; they are admitted in the scratch copy and the build goes on.
`theorems_failed` are the property theorems that no longer compile or that rest on an
admitted lemma.  Being listed there says that the proof breaks, not by itself that the
statement is false of the edited program.  `theorems_tightened` names theorems changed or
added because the edit would otherwise have gone unnoticed.

`seeded/operator_mutants.jsonl` lists mechanical edits of the models (comparison and boolean
operators, constants, branches, dropped updates, stale variables, error codes).  Each was
built in a scratch copy without admitting anything; an edit is killed when some proof of a
lemma or theorem fails (failing examples alone do not count), `at` names the first.  For
the survivors the reason is given; where a theorem was added since, it is named.

## Print Assumptions

`Print Assumptions` prints "Closed under the global context" (no axioms) for each of:

* C01: `C01_alloc_block_sound`, `C01_all_blocks_disjoint`
* C02: `C02_calls_keep_live_bytes`, `C02_write_changes_one_byte`
* C03: `C03_accounting`, `C03_footprint`
* C04: `C04_empty_heap_is_fresh`
* C05: `C05_first_fit`
* C06: `C06_failure_is_clean`, `C06_callback_count`
* C07: `C07_low_water_mark`
* C08: `C08_callocate`, `C08_callocate_succeeds_iff`
* C09: `C09_huge_requests_refused`
* C10: `C10_no_undefined_access_and_termination`
* C11: `C11_null_free_harmless`, `C11_early_double_free_harmless`
* C12: `C12_stale_free_refuted`
* C13: `C13_construction`, `C13_tiny_buffer_refuses_all`
* C14: `C14_small_size_refuted`, `C14_exactly_when_unsafe`
* C15: `C15_counters`, `C15_counts`
* C16: `C16_allocator_allocate`
* C17: `C17_allocator_overflow_refuted`, `C17_wrapped_success_is_short`
* C18: `C18_allocator_equality_refuted`, `C18_allocator_equality_is_identity`
* C19: `C19_add_answers`, `C19_remove_answers`, `C19_bounded_set`, `C19_calls_return`
* C20: `C20_notify_exact`
* C21: `C21_recursion_refused`, `C21_calls_end`
* C22: `C22_clear_disconnects`
* C23: `C23_never_undefined`, `C23_only_registered_called`
* C24: `C24_removal_skips_refuted`, `C24_removing_self_or_earlier`, `C24_next_one_is_skipped`, `C24_removing_later`, `C24_additions_are_safe`
* C25: `C25_add_answers`, `C25_remove_answers`, `C25_add_remove_return`, `C25_notify_exact`, `C25_clear_disconnects`
* C26: `C26_reentry_under_lock`, `C26_renotify_without_lock`, `C26_no_change_during_notify`
* C27: `C27_chain_notify`
* C28: `C28_value_wraps`, `C28_value_of_calls`, `C28_conv_is_wrap`
* C29: `C29_observed_mirror`, `C29_operator_returns`
* C30: `C30_decrement_and_postfix_refuted`
* C31: `C31_undefined_iff_overflow`, `C31_unsigned_never_undefined`, `C31_where_it_overflows`
* C32: `C32_removed_gets_nothing`, `C32_others_keep_receiving`, `C32_add_remove_answers`, `C32_clear_disconnects`
* C33: `C33_dynamic_remove_refuted`, `C33_remove_last_does_nothing_refuted`, `C33_removal_never_shrinks`, `C33_remove_answers`
* C34: `C34_no_lost_update`
* C35: `C35_convergence_refuted`, `C35_only_published_values`, `C35_single_writer_converges`
* C36: `C36_routing`, `C36_send_returns`
* C37: `C37_payload_integrity`, `C37_manager_convert`
* C38: `C38_manager_send_routing`
* C39: `C39_safe_below_capacity`, `C39_ordered_registration`
* C40: `C40_full_teardown_refuted`
* C41: `C41_over_registration_refuted`
* C42: `C42_right_size`, `C42_any_hash`
* C43: `C43_exactly_once_in_order`, `C43_never_undefined`, `C43_destructor_returns`
* C44: `C44_counts_any_load`, `C44_each_item_once_refuted`, `C44_prompt_worker_refuted`
* C45: `C45_value_read_race_free`, `C45_slots_race_free_refuted`
* C46: `C46_statistics_window`, `C46_reports_mean`, `C46_overflow_exact`
* C47: `C47_least_loaded_queue`, `C47_default_queue`
* C48: `C48_pool_exactly_once`, `C48_pool_never_undefined`, `C48_pool_destructor_returns`, `C48_order_across_queues_refuted`
* C49: `C49_orphan_queues_never_processed`, `C49_small_pool_refuted`, `C49_large_pool_refuted`
* C50: `C50_last_occurrence_wins`, `C50_unnamed_unchanged`
* C51: `C51_flag_iff_present`
* C52: `C52_registration_order`
* C53: `C53_other_options_irrelevant`
* C54: `C54_int_round_trip`, `C54_int_clamps`, `C54_any_numeral`, `C54_no_number_gives_zero`, `C54_blank_unchanged`
* C55: `C55_first_word`, `C55_verbatim_without_space`, `C55_blank_unchanged`, `C55_verbatim_refuted`
* C56: `C56_never_past_argv`
* C57: `C57_swap_reverses_bytes`, `C57_swap_involutive`, `C57_swap_fits`
* C58: `C58_lsb_get`, `C58_msb_get`, `C58_default_is_zero`
* C59: `C59_little_endian_wire`
* C60: `C60_host_test_constant`, `C60_every_host_refuted`
* C61: `C61_lsb_comparisons`, `C61_msb_comparisons`
* C62: `C62_round_trip`, `C62_reads_exactly`, `C62_serialize_into`
* C63: `C63_constructed_packet`, `C63_rebuilt_packet`
* C64: `C64_valid_iff`, `C64_corrupt_checksum`
* C65: `C65_static_serialize`
* C66: `C66_accessor_round_trip`, `C66_empty_payload`
* C67: `C67_true_iff_fits`
* C68: `C68_safe_without_wrap`, `C68_wrap_refuted`, `C68_wrapping_counts_exist`, `C68_wrap_without_data`
* C69: `C69_sized_frames`, `C69_reads_announced_bytes`
* C70: `C70_bad_size_rejected`, `C70_out_of_bounds_refuted`, `C70_phantom_payload_refuted`
* C71: `C71_object_inside_storage`, `C71_refused_only_if_unsafe`
* C72: `C72_lifetimes_balance`, `C72_copies_independent`, `C72_moves_touch_two`, `C72_moves_transfer`, `C72_failure_builds_nothing`, `C72_values_left`, `C72_defined_iff`
* C73: `C73_no_call_after_stop`, `C73_worker_out_of_loop`
* C74: `C74_check_exact`, `C74_period_last_set`, `C74_one_call_per_fired_check`, `C74_nth_call_not_early`, `C74_due_check_fires`
* C75: `C75_stop_returns`, `C75_stop_is_bounded`
* C76: `C76_stop_in_callback_refuted`
* C77: `C77_only_unsafe_accesses`, `C77_notify_after_destruction_refuted`, `C77_period_read_uninitialised_refuted`
* C78: `C78_recency_list`, `C78_put_moves_to_front`, `C78_size_zero`
* C79: `C79_table_never_shrinks_refuted`, `C79_table_unbounded_refuted`, `C79_evicted_key_refused_refuted`, `C79_eviction_permanent_refuted`
* C80: `C80_first_value_sticks_refuted`, `C80_put_keeps_old_value_refuted`
* C81: `C81_get_exact_refuted`, `C81_never_a_value_refuted`
* C82: `C82_no_check_in_range`, `C82_no_check_agrees`
* C83: `C83_write_header`, `C83_write_fields`
* C84: `C84_late_clear_hangs_refuted`, `C84_two_stops_refuted`, `C84_sequential_stops`
* C85: `C85_at_most_one_more_call`, `C85_stop_before_start`
* C86: `C86_received_value`, `C86_received_object`
* C87: `C87_default_packet`, `C87_fresh_accessor_refuted`
* C88: `C88_reentrant_never_undefined`, `C88_what_is_tame`, `C88_only_added_are_reached`, `C88_holds_last_told`
* C89: `C89_unconditional_reaction_never_ends`
* C90: `C90_limiter_leaves_stale_copies`, `C90_limiter_last_is_consistent`, `C90_cleared_observers_still_called`
* C91: `C91_dynamic_add`, `C91_dynamic_operator`, `C91_dynamic_clear`
* C92: `C92_defined_without_additions`, `C92_additions_are_undefined`, `C92_holds_last_told`, `C92_removal_during_update`, `C92_who_is_left_out`
* C93: `C93_newcomers_receive`
* C94: `C94_destroying_skips`, `C94_destroyed_sender_refuted`
* C95: `C95_exception_stops`, `C95_only_handlers_throw`
* C96: `C96_callback_acts_afterwards`, `C96_quiet_callback_returns`, `C96_retry_never_returns`
* C97: `C97_alone`, `C97_two_threads_refuted`
* C98: `C98_statistics`, `C98_largest_decides`, `C98_no_block_smallest`
* C99: `C99_chain_in_order`, `C99_chain_never_undefined`, `C99_chain_destructors_return`, `C99_back_to_front_refuted`
* C100: `C100_setters_race_refuted`, `C100_setters_safe_after_stop`
* C101: `C101_any_allocator`, `C101_each_heap_by_itself`, `C101_bytes_kept`, `C101_deallocate_interchangeable`
* C102: `C102_one_at_a_time`, `C102_every_call_once`, `C102_no_deadlock`, `C102_all_finish`, `C102_calling_back_undefined`, `C102_two_way_deadlock_refuted`
* C103: `C103_copy_answers_like_original`, `C103_copy_lives_in_the_original`, `C103_same_block_twice`, `C103_fresh_copies_collide`, `C103_second_release_ignored`
* C104: `C104_answers`, `C104_copy_delivers`, `C104_copy_destroyed`, `C104_assigned`, `C104_copied_while_notifying`, `C104_destroyed_by_callback_refuted`, `C104_assigned_by_callback_refuted`
* C105: `C105_defined`, `C105_ends`, `C105_open_between_calls`, `C105_forwarding_reaches_all`
* C106: `C106_when_undefined`, `C106_observable_first_refuted`, `C106_observers_first`, `C106_careful`, `C106_careful_ends`
* C107: `C107_never_undefined`, `C107_observers_apart`, `C107_settles`, `C107_mirrors`
* C108: `C108_returns_iff_acyclic`, `C108_once_per_way`, `C108_glitch`
* C109: `C109_undefined_means`, `C109_only_live_handlers`, `C109_defined_exactly`, `C109_lifetimes_exactly`, `C109_no_dangling`, `C109_manager_first`, `C109_redirected`
* C110: `C110_message`, `C110_manager_message`, `C110_copies_never_hear`, `C110_ending_a_copy`, `C110_copy_speaks`
* C111: `C111_copy_keeps_its_list`, `C111_copy_dangles`, `C111_assigned`
* C112: `C112_stage_progress`, `C112_catches_up`, `C112_any_load`, `C112_stalled_push_blocks`, `C112_pool_progress`
* C113: `C113_undefined_means`, `C113_goes_on`, `C113_only_live`, `C113_listed_once`, `C113_orderly`, `C113_idle_exactly`, `C113_observable_ends_first`
* C114: `C114_ended_while_listed`, `C114_vector_removed_then_ended_refuted`, `C114_array_removed_then_ended`, `C114_same_address_refuted`, `C114_removed_in_callback_refuted`, `C114_ends_in_callback_refuted`
* C115: `C115_never_undefined`, `C115_calls`, `C115_sent_in_order`, `C115_queues_in_order`, `C115_one_feeder_in_order`, `C115_exactly_once`, `C115_destructors_return`, `C115_pool_feeds_itself_refuted`, `C115_cycle_refuted`
* C116: `C116_calls_told`, `C116_backlog`, `C116_time`, `C116_undefined_only`, `C116_never_undefined`
* C117: `C117_one_pusher`, `C117_together_refuted`, `C117_wrapped_refuted`
* C118: `C118_reports`, `C118_during_call`, `C118_outside_race_refuted`, `C118_inside_no_race`
* C119: `C119_no_call_after_stop`, `C119_calls_finished`, `C119_stops_return`, `C119_circle_refuted`, `C119_two_stops_refuted`
* C120: `C120_only_the_blocks_matter`, `C120_allocate_then_free`
* C121: `C121_freeing_helps`, `C121_fewer_or_smaller`, `C121_enough_is_enough`, `C121_half_free_refuted`
* C122: `C122_whole_or_none`, `C122_in_order`, `C122_wait_free`, `C122_rejected_for_another`, `C122_as_before`, `C122_both_deliver_refuted`
* C123: `C123_alone`, `C123_lost_add_refuted`, `C123_overflow_refuted`, `C123_late_call_refuted`, `C123_missed_refuted`, `C123_races`
* C124: `C124_exact_pool`, `C124_lowest_place`, `C124_in_places`, `C124_half_is_sure`, `C124_small_half_lost_refuted`
* C125: `C125_larger_keeps_more`, `C125_refused_by_larger`, `C125_fewer_refusals`, `C125_enough`, `C125_recent_keys_stay`
* C126: `C126_delivered`, `C126_wait_free`, `C126_no_race`, `C126_one_order_refuted`, `C126_one_at_a_time_refuted`
* C127: `C127_turns`, `C127_lost_refuted`, `C127_too_early_refuted`, `C127_too_late_refuted`, `C127_left_out_refuted`, `C127_twice_refuted`, `C127_own_message_refuted`, `C127_races_refuted`
* C128: `C128_up_to_eight`, `C128_sixteen`, `C128_sixteen_held`, `C128_sixteen_mixed_refuted`, `C128_more_refuted`
* C129: `C129_ends_at_first_throw`, `C129_notify`, `C129_clear`
* C130: `C130_exceptions`, `C130_still_usable`, `C130_clear`, `C130_clear_again`, `C130_destructor`, `C130_notify`
* C131: `C131_narrow`, `C131_wide`, `C131_double`
* C132: `C132_publish`, `C132_exact`, `C132_decrement`, `C132_counter`, `C132_threads`, `C132_order`, `C132_fraction`, `C132_nan`
* C133: `C133_defined`, `C133_vectors_are_lists`, `C133_others_kept`, `C133_bad_alloc`, `C133_in_use`, `C133_length_error`, `C133_throw_changes_nothing`, `C133_elsewhere`, `C133_stays`, `C133_reserved`, `C133_no_leak`
* C134: `C134_defined`, `C134_calls`, `C134_atomic`, `C134_each_value_once`, `C134_counter`, `C134_value_never_back`, `C134_order_refuted`, `C134_overlap_refuted`
* C135: `C135_in_function`, `C135_after_return`, `C135_lag`, `C135_never_back`, `C135_two_back_refuted`
* C136: `C136_defined`, `C136_lists_are_sequences`, `C136_both_ways`, `C136_places`, `C136_erase_next`, `C136_stays`, `C136_others_kept`, `C136_bad_alloc`, `C136_in_use`, `C136_throw_changes_nothing`, `C136_no_leak`
* C137: `C137_parses_again`, `C137_nothing_is_reset`, `C137_same_again`, `C137_in_pieces`
* C138: `C138_turns`, `C138_same_block_twice`, `C138_freed_block_lost`, `C138_races`
* C139: `C139_ends_at_throw`, `C139_update`, `C139_notify`, `C139_clear_or_end`
* C140: `C140_alone`, `C140_lost_add_refuted`, `C140_overflow_refuted`, `C140_told_after_removal_refuted`, `C140_told_after_clear_refuted`, `C140_left_behind_refuted`, `C140_function_taken_refuted`, `C140_function_replaced_refuted`, `C140_races`
* C141: `C141_alone`, `C141_from_new`, `C141_lost_add_refuted`, `C141_freed_array_read_refuted`, `C141_mixed_iterators_refuted`, `C141_freed_twice_refuted`, `C141_told_after_clear_refuted`, `C141_races`
* C142: `C142_goes_on`, `C142_ends`, `C142_left_normally`, `C142_lost`, `C142_no_orderly_end`, `C142_dies`
* C143: `C143_goes_on`, `C143_ends`, `C143_stop_has_not_returned`, `C143_safe_after_stop`, `C143_first_call_is_last`
