{"id": "C01", "title": "Allocated blocks are in bounds, aligned and disjoint", "statement": "Every non-null pointer returned by static_heap::allocate(n) is 8-byte aligned, the n bytes it addresses lie wholly inside the heap's own buffer, and they overlap no byte of any block handed out earlier and not yet deallocated.", "quantifier": "every history of allocate/callocate/deallocate/reset/on_fail calls and client writes by a client that frees only what it holds and writes only inside blocks it holds; every buffer address and every buffer size with room for a block header besides the end marker (smaller ones: C13, C14)", "why_tests_cant": "Overlap only shows up for particular fragmentation patterns; the space of histories is infinite.", "anchors": ["include/xitren/allocators/static_heap.hpp:allocate", "include/xitren/allocators/static_heap.hpp:prv_insert_block_into_free_list"]}
{"id": "C02", "title": "Heap operations never change bytes of blocks the client holds", "statement": "allocate, callocate, deallocate, reset_minimum_ever_free_heap_size and on_fail leave every byte of every block that is live before and after the call unchanged; only the client's own stores change them.", "quantifier": "every history of allocate/callocate/deallocate/reset/on_fail calls and client writes by a client that frees only what it holds and writes only inside blocks it holds; every buffer address and every buffer size with room for a block header besides the end marker (smaller ones: C13, C14)", "why_tests_cant": "A clobbered byte is visible only in the history that puts a header on top of live data.", "anchors": ["include/xitren/allocators/static_heap.hpp:allocate", "include/xitren/allocators/static_heap.hpp:deallocate", "include/xitren/allocators/static_heap.hpp:callocate"]}
{"id": "C03", "title": "Free-byte accounting is exact", "statement": "At every point free_heap_size() plus the footprints of the live blocks equals the free size right after construction. The footprint charged for an n-byte request is exact: with room = the distance from the block's start to the next live block above it (or the end of the area), it is the whole room if at most 32 bytes would be left over, and roundup8(n+16) otherwise; so it is between roundup8(n+16) and roundup8(n+16)+32.", "quantifier": "every history of allocate/callocate/deallocate/reset/on_fail calls and client writes by a client that frees only what it holds and writes only inside blocks it holds; every buffer address and every buffer size with room for a block header besides the end marker (smaller ones: C13, C14)", "why_tests_cant": "Accounting drift accumulates over unbounded histories.", "anchors": ["include/xitren/allocators/static_heap.hpp:free_heap_size", "include/xitren/allocators/static_heap.hpp:allocate", "include/xitren/allocators/static_heap.hpp:deallocate"]}
{"id": "C04", "title": "Freeing everything restores a fresh heap", "statement": "Once a client has deallocated every block, in whatever order, the heap is observationally equal to a newly constructed one: free_heap_size() is the initial value and every later sequence of calls returns the same pointers and the same free sizes as it would on a fresh heap (no residual fragmentation).", "quantifier": "every history of allocate/callocate/deallocate/reset/on_fail calls and client writes by a client that frees only what it holds and writes only inside blocks it holds; every buffer address and every buffer size with room for a block header besides the end marker (smaller ones: C13, C14); every continuation", "why_tests_cant": "Coalescing must be right for every free order and neighbour configuration.", "anchors": ["include/xitren/allocators/static_heap.hpp:deallocate", "include/xitren/allocators/static_heap.hpp:prv_insert_block_into_free_list"]}
{"id": "C05", "title": "allocate is exactly address-ordered first fit", "statement": "allocate(n) returns non-null if and only if 0<n, rounding does not overflow and some maximal gap between live blocks is at least roundup8(n+16) bytes; it then uses the lowest-addressed such gap.", "quantifier": "every history of allocate/callocate/deallocate/reset/on_fail calls and client writes by a client that frees only what it holds and writes only inside blocks it holds; every buffer address and every buffer size with room for a block header besides the end marker (smaller ones: C13, C14); every n in size_t", "why_tests_cant": "Both directions quantify over all fragmentation states.", "anchors": ["include/xitren/allocators/static_heap.hpp:allocate"]}
{"id": "C06", "title": "A failing allocate changes nothing and reports exactly once", "statement": "If allocate returns null the free size, minimum, counters, live blocks and all bytes of the heap are as before and the on_fail callback (if set) runs exactly once; if allocate returns non-null the callback does not run. Over a whole history the callback has run exactly as often as requests were refused while one was set, not counting callocate calls whose product overflows size_t.", "quantifier": "every history of allocate/callocate/deallocate/reset/on_fail calls and client writes by a client that frees only what it holds and writes only inside blocks it holds; every buffer address and every buffer size with room for a block header besides the end marker (smaller ones: C13, C14); every request size", "why_tests_cant": "Absence of side effects has to hold in every state.", "anchors": ["include/xitren/allocators/static_heap.hpp:allocate", "include/xitren/allocators/static_heap.hpp:on_fail"]}
{"id": "C07", "title": "minimum_ever_free_heap_size is the true low-water mark", "statement": "minimum_ever_free_heap_size() equals the minimum of free_heap_size() over all points since construction or since the last reset_minimum_ever_free_heap_size().", "quantifier": "every history of allocate/callocate/deallocate/reset/on_fail calls and client writes by a client that frees only what it holds and writes only inside blocks it holds; every buffer address and every buffer size with room for a block header besides the end marker (smaller ones: C13, C14)", "why_tests_cant": "It is a statement about whole histories.", "anchors": ["include/xitren/allocators/static_heap.hpp:minimum_ever_free_heap_size", "include/xitren/allocators/static_heap.hpp:reset_minimum_ever_free_heap_size"]}
{"id": "C08", "title": "callocate hands out zeroed memory of num*size bytes", "statement": "If callocate(num,size) returns non-null the num*size bytes at the result are all zero, in bounds, and disjoint from live blocks; if num*size does not fit in size_t it returns null with no effect on the heap.", "quantifier": "every history of allocate/callocate/deallocate/reset/on_fail calls and client writes by a client that frees only what it holds and writes only inside blocks it holds; every buffer address and every buffer size with room for a block header besides the end marker (smaller ones: C13, C14); every num and size in size_t", "why_tests_cant": "Overflow of num*size lives at the far end of the input range and stale bytes depend on history.", "anchors": ["include/xitren/allocators/static_heap.hpp:callocate", "include/xitren/allocators/static_heap.hpp:heap_multiply_will_overflow"]}
{"id": "C09", "title": "Requests near SIZE_MAX are refused, never wrapped", "statement": "For every n in size_t whose rounded size n+16 does not fit, or has the top bit set, or exceeds the free bytes, allocate(n) returns null and leaves the heap unchanged.", "quantifier": "every n in [0,2^64), every reachable heap state", "why_tests_cant": "Tests sample a few sizes; wrap-around happens in the last few values of a 64-bit range.", "anchors": ["include/xitren/allocators/static_heap.hpp:heap_add_will_overflow", "include/xitren/allocators/static_heap.hpp:heap_block_size_is_valid", "include/xitren/allocators/static_heap.hpp:allocate"]}
{"id": "C10", "title": "No out-of-bounds access and no endless loop inside the heap", "statement": "For a well-behaved client no call of the heap reads or writes a word outside the heap's buffer and list head, every internal access is aligned, and every internal loop ends.", "quantifier": "every history of allocate/callocate/deallocate/reset/on_fail calls and client writes by a client that frees only what it holds and writes only inside blocks it holds; every buffer address and every buffer size with room for a block header besides the end marker (smaller ones: C13, C14)", "why_tests_cant": "Memory safety and termination are for-all-executions statements.", "anchors": ["include/xitren/allocators/static_heap.hpp:allocate", "include/xitren/allocators/static_heap.hpp:deallocate", "include/xitren/allocators/static_heap.hpp:prv_insert_block_into_free_list"]}
{"id": "C11", "title": "deallocate(nullptr) and early double frees are harmless", "statement": "deallocate(nullptr) changes nothing; deallocating p again, with any number of deallocations of other blocks but no allocation in between, changes nothing.", "quantifier": "every history of allocate/callocate/deallocate/reset/on_fail calls and client writes by a client that frees only what it holds and writes only inside blocks it holds; every buffer address and every buffer size with room for a block header besides the end marker (smaller ones: C13, C14); every sequence of frees between the two", "why_tests_cant": "Harmlessness depends on stale header words that survive merging.", "anchors": ["include/xitren/allocators/static_heap.hpp:deallocate", "include/xitren/allocators/static_heap.hpp:heap_block_is_allocated"]}
{"id": "C12", "title": "Freeing a stale pointer after reuse can change the heap", "statement": "The heap does not recognise every stale pointer: there are histories in which deallocate(p), for a p that was returned once, has since been freed and is not held, is accepted and changes free_heap_size(). (Freeing it again before any further allocation is harmless, see C11.)", "quantifier": "existential: a history and a pointer returned in it", "why_tests_cant": "The violation needs a specific reuse pattern.", "anchors": ["include/xitren/allocators/static_heap.hpp:deallocate"]}
{"id": "C13", "title": "Construction gives the whole aligned buffer", "statement": "For every buffer address and every Size large enough, a new heap has one free block covering the buffer from its first 8-aligned address up to the 8-aligned end marker; free_heap_size() and minimum_ever_free_heap_size() both report exactly that length.", "quantifier": "every Size and every buffer address", "why_tests_cant": "Depends on Size mod 8 and address mod 8 jointly, and on 64-bit wrap for small sizes.", "anchors": ["include/xitren/allocators/static_heap.hpp:static_heap"]}
{"id": "C14", "title": "Exactly which sizes make construction memory-unsafe", "statement": "Constructing static_heap<Size> writes outside its buffer exactly when the 8-aligned place for the end marker, 16 bytes before the end, falls below the buffer's first byte; such sizes exist and compile.", "quantifier": "every Size and buffer address", "why_tests_cant": "Tests use 256 and up.", "anchors": ["include/xitren/allocators/static_heap.hpp:static_heap"]}
{"id": "C15", "title": "Success counters are exact", "statement": "The heap's counters equal, modulo 2^64, the number of calls that handed out a block and the number of calls that gave one back; their difference equals the number of live blocks (modulo 2^64).", "quantifier": "every history of allocate/callocate/deallocate/reset/on_fail calls and client writes by a client that frees only what it holds and writes only inside blocks it holds; every buffer address and every buffer size with room for a block header besides the end marker (smaller ones: C13, C14)", "why_tests_cant": "Counter invariants are about all histories.", "anchors": ["include/xitren/allocators/static_heap.hpp:x_number_of_successful_allocations_", "include/xitren/allocators/static_heap.hpp:x_number_of_successful_frees_"]}
{"id": "C16", "title": "static_heap_allocator::allocate(n) gives room for n objects or throws", "statement": "If n*sizeof(T) fits in size_t, static_heap_allocator<T>::allocate(n) either returns a pointer to n*sizeof(T) usable bytes disjoint from everything live, or throws bad_alloc leaving the heap unchanged; it never returns null.", "quantifier": "every n and sizeof(T) with n*sizeof(T) < 2^64, every reachable heap state", "why_tests_cant": "All n, all sizes, all heap states.", "anchors": ["include/xitren/allocators/static_heap_allocator.hpp:allocate"]}
{"id": "C17", "title": "static_heap_allocator::allocate and multiplication overflow", "statement": "allocate(n) multiplies n*sizeof(T) modulo 2^64: whenever the true product is 2^64 or more and the call still succeeds, the block does not fit inside the heap's buffer, and such a success exists.", "quantifier": "every n in size_t", "why_tests_cant": "The wrap needs astronomically large n.", "anchors": ["include/xitren/allocators/static_heap_allocator.hpp:allocate"]}
{"id": "C18", "title": "Allocator equality is object identity", "statement": "Two static_heap_allocator objects compare equal exactly when they are the same object; in particular a copy over the same heap never equals its original, contrary to the C++ Allocator requirements.", "quantifier": "every pair of allocator objects", "why_tests_cant": "It is a relation over all pairs of objects.", "anchors": ["include/xitren/allocators/static_heap_allocator.hpp:operator=="]}
{"id": "C19", "title": "observable_static is a bounded ordered set of observers", "statement": "After any history the registered observers are, in registration order and without duplicates, those added and not since removed or cleared; at most Max; add returns ok / list_is_full / already_contains and remove returns ok / not_found exactly as that set dictates.", "quantifier": "every sequence of add/remove/clear/notify calls on observers drawn from any set; every capacity Max", "why_tests_cant": "Refinement over all histories.", "anchors": ["include/xitren/comm/observer.hpp:observable<T,true,Max>::add_observer", "include/xitren/comm/observer.hpp:remove_observer", "include/xitren/comm/observer.hpp:clear_observers"]}
{"id": "C20", "title": "notify delivers once to each observer in registration order", "statement": "With callbacks that do not modify the observable, notify_observers(v) calls every registered observer exactly once, in registration order, with the value v and this observable as source, and returns ok.", "quantifier": "every sequence of add/remove/clear/notify calls on observers drawn from any set; every capacity Max; every value", "why_tests_cant": "All histories and all values.", "anchors": ["include/xitren/comm/observer.hpp:notify_observers"]}
{"id": "C21", "title": "Recursive notification is refused for any callback behaviour", "statement": "Whatever an observer's callback does with the observable (add, remove, clear, notify, in any combination depending on anything that happened before), a nested notify_observers returns notify_recursion_detected and delivers nothing, the outermost call returns ok, and it does end as long as no disconnect handler clears the observable, and afterwards notification works again.", "quantifier": "every callback behaviour (an arbitrary function of the event history), every registration state", "why_tests_cant": "Callbacks are arbitrary programs.", "anchors": ["include/xitren/comm/observer.hpp:notify_observers", "include/xitren/comm/observer.hpp:inside"]}
{"id": "C22", "title": "Disconnect on clear and destruction", "statement": "When disconnect handlers leave the observable alone, clear_observers() (which is all the destructor does, C104) calls disconnect exactly once on each registered observer, in registration order, and leaves the set empty.", "quantifier": "every sequence of add/remove/clear/notify calls on observers drawn from any set; every capacity Max", "why_tests_cant": "All registration states.", "anchors": ["include/xitren/comm/observer.hpp:clear_observers", "include/xitren/comm/observer.hpp:~observable"]}
{"id": "C23", "title": "Modification during notification is memory safe", "statement": "Whatever callbacks do, during a notification the array is never read or written outside its Max slots and every pointer called is one that had been registered through add_observer (never null or garbage).", "quantifier": "every callback behaviour, every registration state", "why_tests_cant": "Iteration over a list mutated by arbitrary callbacks.", "anchors": ["include/xitren/comm/observer.hpp:notify_observers", "include/xitren/comm/observer.hpp:remove_observer"]}
{"id": "C24", "title": "Changing the set during a notification", "statement": "If callbacks only add (or try to notify), everybody registered at the start is called exactly once, in order, and newcomers are not called in that round. Removal is not safe in that sense, and this is exactly what it does: when an observer removes itself or one registered before it, the next observer (still registered) is skipped and the last one is called twice, all others once; when it removes a later one, that one is skipped and the last one called twice, unless the removed one is the last, which is then still called after its removal.", "quantifier": "every number of observers, every position of the remover and of the removed, every value; every callback behaviour for the first part", "why_tests_cant": "Depends on positions of the remover and the removed.", "anchors": ["include/xitren/comm/observer.hpp:notify_observers", "include/xitren/comm/observer.hpp:remove_observer"]}
{"id": "C25", "title": "observable_dynamic is an ordered set without capacity", "statement": "For the dynamic observable the same set semantics holds without a capacity: add throws already_contains exactly for a duplicate, remove throws not_found exactly for an absent observer, and notify calls each once in order.", "quantifier": "every sequence of add/remove/clear/notify calls on observers drawn from any set; builds with and without the mutex", "why_tests_cant": "Refinement over all histories.", "anchors": ["include/xitren/comm/observer.hpp:observable<T,false,Size>"]}
{"id": "C26", "title": "Reentrant use of the dynamic observable", "statement": "Under the mutex build a notification in which some registered observer's callback calls any member of the same observable never completes normally (relocking is undefined, in practice self-deadlock); in the build without mutex a callback that always renotifies never ends; in both builds a notification that completes is one during which no callback changed the set (otherwise the loop uses invalidated iterators).", "quantifier": "every registration state with at least one observer, every reentrant operation", "why_tests_cant": "Deadlock and divergence are statements about all continuations.", "anchors": ["include/xitren/comm/observer.hpp:notify_observers", "include/xitren/comm/observer.hpp:access_"]}
{"id": "C27", "title": "The compile-time observable calls its observers once each, in order", "statement": "observable<D,Obs...>::notify(d) calls every observer given at construction exactly once in declaration order with d, and all of them see the same source object.", "quantifier": "every non-empty observer list, every datum", "why_tests_cant": "Every length of the parameter pack.", "anchors": ["include/xitren/comm/observer_static.hpp:observable::notify", "include/xitren/comm/observer_static.hpp:root"]}
{"id": "C28", "title": "values::observable stores the arithmetic result modulo its width", "statement": "After any history, also one whose callbacks operate on the observable, value() is the mathematical result of the operations wrapped to the type (in range and congruent modulo 2^width); when callbacks leave the observable alone it is determined by the calls made.", "quantifier": "every sequence of =, +=, -=, ++, -- (prefix and postfix) operations; every integer type (8..64 bits, signed or unsigned) and operand", "why_tests_cant": "All operand sequences including wrap-around.", "anchors": ["include/xitren/comm/values/observable.hpp:operator++", "include/xitren/comm/values/observable.hpp:operator+=", "include/xitren/comm/values/observable.hpp:value"]}
{"id": "C29", "title": "Observed values mirror the observable after =, +=, -=, ++x", "statement": "After x=v, x+=v, x-=v or ++x (without signed overflow) every registered observed holds exactly value(), its callback ran exactly once with that value, the operator returned that value, and non-registered observeds are untouched.", "quantifier": "every sequence of =, +=, -=, ++, -- (prefix and postfix) operations; every integer type (8..64 bits, signed or unsigned) and operand; every set of registered observeds", "why_tests_cant": "All values, all registrations.", "anchors": ["include/xitren/comm/values/observable.hpp:operator=", "include/xitren/comm/values/observable.hpp:operator+=", "include/xitren/comm/values/observable.hpp:operator-=", "include/xitren/comm/values/observable.hpp:operator++()", "include/xitren/comm/values/observed.hpp:data"]}
{"id": "C30", "title": "x++, x-- and --x publish a wrong value", "statement": "Unlike the other operators (C29), x++, x-- and --x never leave a registered observed equal to value(): the postfix forms publish and return the old value, --x publishes and returns the old value plus one, while value() itself is updated correctly.", "quantifier": "every sequence of =, +=, -=, ++, -- (prefix and postfix) operations; every integer type (8..64 bits, signed or unsigned) and operand", "why_tests_cant": "Tests only exercise operator=.", "anchors": ["include/xitren/comm/values/observable.hpp:operator++(int)", "include/xitren/comm/values/observable.hpp:operator--(int)", "include/xitren/comm/values/observable.hpp:operator--()"]}
{"id": "C31", "title": "Signed overflow in the operators", "statement": "An operator is undefined exactly when its own addition leaves the range of the promoted signed type, although the stored atomic wraps safely: for signed types of at least 32 bits ++x and --x at the maximum value and += / -= past the range; for 8/16-bit types only += / -= with operands near the int limits; for unsigned types of at least 32 bits nothing is ever undefined, whatever the callbacks do.", "quantifier": "every sequence of =, +=, -=, ++, -- (prefix and postfix) operations; every integer type (8..64 bits, signed or unsigned) and operand", "why_tests_cant": "The failing inputs are single points of a 64-bit range.", "anchors": ["include/xitren/comm/values/observable.hpp:operator++()", "include/xitren/comm/values/observable.hpp:operator+=", "include/xitren/comm/values/observable.hpp:operator-="]}
{"id": "C32", "title": "remove_observer of the fixed-size value observable really removes", "statement": "For values::observable<T,Max>, after remove_observer(o)=ok, o gets no further updates until added again, the others keep receiving each update exactly once in registration order, and every add/remove answers as a bounded ordered set. clear_observers disconnects each registered observed exactly once, in order, changes neither the value nor any copy, and afterwards no operator reaches anyone.", "quantifier": "every history, every registration state", "why_tests_cant": "All positions and histories.", "anchors": ["include/xitren/comm/values/observable.hpp:observable<T,Max>::remove_observer"]}
{"id": "C33", "title": "remove_observer of the dynamic value observable does not remove", "statement": "For values::observable<T,0> a successful remove_observer never lowers the number of deliveries per update: after registering distinct observers l and removing o, every update is delivered to l without o followed once more by the last of l; in particular removing the observer registered last answers ok and leaves everything as it was.", "quantifier": "every list of registered observers, every removed one, every later operator; every state for the delivery count", "why_tests_cant": "Depends on the position of the removed observer.", "anchors": ["include/xitren/comm/values/observable.hpp:observable<T,0>::remove_observer"]}
{"id": "C34", "title": "Concurrent updates are not lost", "statement": "For any number of threads each applying any sequence of +=/-=/++/-- to one values::observable under any interleaving, the final value() is the initial value plus the sum of all increments modulo the width.", "quantifier": "every number of threads, every program, every interleaving", "why_tests_cant": "Interleavings cannot be enumerated.", "anchors": ["include/xitren/comm/values/observable.hpp:fetch_add"]}
{"id": "C35", "title": "Observers under concurrent updates", "statement": "Concurrent updates may finish with an observed holding an older value than value() (update and notification are not atomic together); an observed only ever holds its first content or a value some update published, and with a single writing thread that uses =, +=, -=, ++x every registered observed ends up equal to value().", "quantifier": "every interleaving of any number of threads", "why_tests_cant": "Interleavings.", "anchors": ["include/xitren/comm/values/observable.hpp:operator++()", "include/xitren/comm/values/observable.hpp:notify_observers"]}
{"id": "C36", "title": "Mediator routing", "statement": "A message of type D sent by an existing module first reaches the manager's own data(id, bytes), then directly starts exactly the handlers of the registered modules that list D among their receive types and do not themselves send D; each exactly once, in registration order, also when handlers and the manager's data() send further messages, provided no other type in use has D's name hash. If handlers return at once the send returns.", "quantifier": "every set of registered modules, every type assignment, every hash function injective on the types in use", "why_tests_cant": "All configurations of modules and types.", "anchors": ["include/xitren/comm/mediator.hpp:distribute", "include/xitren/comm/mediator.hpp:receive", "include/xitren/comm/mediator.hpp:receiver_converter", "include/xitren/comm/mediator.hpp:manager::data"]}
{"id": "C37", "title": "Mediator payload integrity", "statement": "The value a receiver (or the manager's own data()) is given is the value sent, for every message type and value, both for module::send and manager::send. manager::convert_field gives the value back when the sizes agree, throws exactly when they differ, and never reads outside the message.", "quantifier": "every value, every trivially copyable type", "why_tests_cant": "All values.", "anchors": ["include/xitren/comm/mediator.hpp:convert_field", "include/xitren/comm/mediator.hpp:send"]}
{"id": "C38", "title": "manager::send routing", "statement": "manager::send(d) reaches exactly the registered modules that receive d's type and do not send it, once each, in order, and not the manager's own data().", "quantifier": "every registration state and value", "why_tests_cant": "All configurations.", "anchors": ["include/xitren/comm/mediator.hpp:manager::send"]}
{"id": "C39", "title": "Registration is an ordered list with order-preserving removal", "statement": "While fewer than Sources modules are registered, construction appends a module and destruction removes exactly that module, keeping the order of the rest; undefined behaviour of any history, whatever the handlers do (send, construct, destroy, throw), means that the table is full at that moment, or that the module whose message is being distributed does not exist (any more).", "quantifier": "every history of constructions/destructions", "why_tests_cant": "All histories.", "anchors": ["include/xitren/comm/mediator.hpp:add_module", "include/xitren/comm/mediator.hpp:remove_module"]}
{"id": "C40", "title": "A manager with exactly Sources modules cannot be torn down safely", "statement": "When Sources modules are registered, destroying any of them writes outside the table (remove_module writes modules_[modules_cnt_] before decrementing): undefined behaviour for every Sources and history.", "quantifier": "every Sources, every history reaching a full table", "why_tests_cant": "Needs a full table; tests use 3 of 5.", "anchors": ["include/xitren/comm/mediator.hpp:remove_module"]}
{"id": "C41", "title": "Over-registration is not detected", "statement": "When Sources modules are registered, constructing one more writes outside the table, for every Sources and history.", "quantifier": "every Sources", "why_tests_cant": "Needs exact capacity.", "anchors": ["include/xitren/comm/mediator.hpp:add_module"]}
{"id": "C42", "title": "Hash collisions never deliver a payload of the wrong size", "statement": "For any hash function, colliding or not, a receiver's handler for type D is only invoked with exactly sizeof(D) bytes taken from the message; a message of another size is dropped.", "quantifier": "every hash function, every byte string and size", "why_tests_cant": "All collisions.", "anchors": ["include/xitren/comm/mediator.hpp:convert_field"]}
{"id": "C43", "title": "Pipeline processes each item exactly once in order while at most BufferSize items are pushed", "statement": "For any number of producers pushing at most BufferSize items in total, under every interleaving, the worker calls the function exactly once per item, in slot (ticket) order, and when the destructor has joined the worker all pushed items have been processed.", "quantifier": "every number of producers, every interleaving of their pushes with the worker and the destructor", "why_tests_cant": "Interleavings.", "anchors": ["include/xitren/comm/pipeline_stage.hpp:push", "include/xitren/comm/pipeline_stage.hpp:worker_", "include/xitren/comm/pipeline_stage.hpp:~pipeline_stage"]}
{"id": "C44", "title": "Pipeline load beyond BufferSize: counts are kept, items are not", "statement": "However many items are pushed, every value the function is called with was pushed, it is called at most once per push and exactly as often as there were pushes once the destructor has joined. But items are lost and duplicated as soon as BufferSize+1 items are pushed: if they are all pushed before the worker looks, the first item is never processed and the last is processed twice; and even a worker that has kept up processes the old item of a slot instead of the new one when it looks between the ticket and the assignment.", "quantifier": "every BufferSize, every push count and interleaving for the counts; every BufferSize and all item values for the two failing schedules", "why_tests_cant": "Needs a slow worker.", "anchors": ["include/xitren/comm/pipeline_stage.hpp:push", "include/xitren/comm/pipeline_stage.hpp:worker_"]}
{"id": "C45", "title": "Pipeline slots: value reads are race free up to BufferSize pushes, flag reads are not", "statement": "While at most BufferSize items are pushed, the slot value handed to the function is never read while a producer is assigning that slot. The readiness flag of a slot, however, is read without synchronisation: in every reachable state where the worker is waiting for work and a producer is about to push, three further steps lead to the worker reading the slot in the middle of the assignment (a data race).", "quantifier": "every interleaving, every BufferSize, every reachable waiting state", "why_tests_cant": "Data races are not observable by tests.", "anchors": ["include/xitren/comm/pipeline_stage.hpp:push", "include/xitren/comm/pipeline_stage.hpp:worker_"]}
{"id": "C46", "title": "Pipeline statistics window", "statement": "The measurements reported to the function and by time_for_unit / buffer_utilization are the sum of the last at most ten processed items' measurements divided by ten; the window never exceeds ten entries. They are undefined exactly if adding the measurements up, newest first, leaves the range of int, so never while every measurement stays below 214748365.", "quantifier": "every sequence of measurements", "why_tests_cant": "All lengths.", "anchors": ["include/xitren/comm/pipeline_stage.hpp:time_for_unit", "include/xitren/comm/pipeline_stage.hpp:buffer_utilization", "include/xitren/comm/pipeline_stage_pool.hpp:time_for_unit"]}
{"id": "C47", "title": "Pool push chooses a least-loaded queue", "statement": "push on pipeline_stage_pool puts the item in a queue whose backlog is minimal among the pool's queues, the first such one, whenever some backlog is below INT_MAX.", "quantifier": "every backlog vector", "why_tests_cant": "All vectors of 64-bit counters.", "anchors": ["include/xitren/comm/pipeline_stage_pool.hpp:min_thread"]}
{"id": "C48", "title": "Pool with PoolSize=8 processes every item exactly once, not in order", "statement": "With PoolSize 8, at most BufferSize items per queue, every interleaving: every pushed item is processed exactly once, by one worker, and the destructor returns only after all have been processed. Order is not kept: for every BufferSize there is an execution in which the second item of a single producer is processed while its first is still waiting.", "quantifier": "every interleaving of producers, 8 workers and destructor", "why_tests_cant": "Interleavings.", "anchors": ["include/xitren/comm/pipeline_stage_pool.hpp:push", "include/xitren/comm/pipeline_stage_pool.hpp:pipeline_stage_pool"]}
{"id": "C49", "title": "Pool with PoolSize other than 8", "statement": "With PoolSize below 8 items put in queue number PoolSize or above are never processed under any schedule, the destructor does not wait for them, and PoolSize+1 pushes made before the workers start already put an item there, following the least-loaded choice. With PoolSize above 8 the first step of worker 8 indexes outside the array of queues, in every state.", "quantifier": "every PoolSize, every BufferSize, every schedule, all item values", "why_tests_cant": "Tests only use 8.", "anchors": ["include/xitren/comm/pipeline_stage_pool.hpp:pool_type", "include/xitren/comm/pipeline_stage_pool.hpp:min_thread"]}
{"id": "C50", "title": "Option values: last occurrence with a following argument wins", "statement": "After parse, an int/string/double option holds the conversion of the argument following its last occurrence that has a following argument (conversions that leave the target unchanged are skipped); options that never occur keep their value.", "quantifier": "every argument vector up to INT_MAX arguments, every option table (also with repeated names, where the last registration counts, and shared members)", "why_tests_cant": "All argument vectors.", "anchors": ["include/xitren/func/argv_parser.hpp:parse", "include/xitren/func/argv_parser.hpp:register_callback"]}
{"id": "C51", "title": "Flags are set exactly when present", "statement": "A bool option is true after parse iff it was true before or its name occurs anywhere in argv; it never consumes the following argument.", "quantifier": "every argument vector and table", "why_tests_cant": "All argument vectors.", "anchors": ["include/xitren/func/argv_parser.hpp:register_callback"]}
{"id": "C52", "title": "Registration order does not matter", "statement": "With distinct option names bound to distinct members, the result of parse does not depend on the order in which options were registered.", "quantifier": "every permutation of every table with distinct names, every argument vector", "why_tests_cant": "All permutations.", "anchors": ["include/xitren/func/argv_parser.hpp:instance", "include/xitren/func/argv_parser.hpp:callbacks_"]}
{"id": "C53", "title": "Unrelated options do not interfere", "statement": "The value of one option after parse depends only on its own occurrences in argv: adding or removing other registrations does not change it.", "quantifier": "every table and argv", "why_tests_cant": "All tables.", "anchors": ["include/xitren/func/argv_parser.hpp:parse"]}
{"id": "C54", "title": "Integer arguments round-trip and out-of-range input clamps", "statement": "For every int n, passing its decimal text sets the option to n; more generally white space, an optional sign and decimal digits (leading zeros allowed) give the number they stand for, whatever non-digit follows, and beyond the int range INT_MAX / INT_MIN; text with no leading number gives 0; empty or blank text leaves the option unchanged.", "quantifier": "every int, every string", "why_tests_cant": "2^32 values and all strings.", "anchors": ["include/xitren/func/argv_parser.hpp:register_callback"]}
{"id": "C55", "title": "String arguments are cut at white space", "statement": "A string option receives the first white-space delimited word of the following argument: the whole argument if it is non-empty and has no white space, never the argument itself if it has any; a blank or empty argument leaves the option unchanged.", "quantifier": "every string", "why_tests_cant": "All strings.", "anchors": ["include/xitren/func/argv_parser.hpp:register_callback"]}
{"id": "C56", "title": "parse never reads past argv", "statement": "For every argc/argv, including an option name as last argument and argc=0, parse indexes only argv[0..argc-1].", "quantifier": "every argument vector and table", "why_tests_cant": "All lengths.", "anchors": ["include/xitren/func/argv_parser.hpp:parse", "include/xitren/func/argv_parser.hpp:register_callback"]}
{"id": "C57", "title": "swap reverses bytes and is an involution", "statement": "swap on 16/32/64-bit values reverses the byte order; swap(swap(v))=v for every v.", "quantifier": "every value", "why_tests_cant": "2^64 values.", "anchors": ["include/xitren/func/data.hpp:swap"]}
{"id": "C58", "title": "lsb_t/msb_t store and return every value", "statement": "For every value, lsb_t(v).get()==v and msb_t(v).get()==v, after construction or assignment, on little- and big-endian hosts.", "quantifier": "every value, width and host endianness", "why_tests_cant": "2^64 values and other hosts.", "anchors": ["include/xitren/func/data.hpp:lsb_t", "include/xitren/func/data.hpp:msb_t"]}
{"id": "C59", "title": "Wire format on little-endian hosts", "statement": "On a little-endian host the bytes of lsb_t(v) in memory are v's bytes least significant first, of msb_t(v) most significant first.", "quantifier": "every value and width", "why_tests_cant": "2^64 values.", "anchors": ["include/xitren/func/data.hpp:lsb_t", "include/xitren/func/data.hpp:msb_t", "include/xitren/func/data.hpp:is_lsb"]}
{"id": "C60", "title": "Wire format on big-endian hosts (finding)", "statement": "The wire format is not the same on every host: the host byte-order test answers 'little-endian' on every host, so on a big-endian host lsb_t stores exactly the bytes msb_t stores on a little-endian host, and vice versa.", "quantifier": "every value and width, both endiannesses", "why_tests_cant": "Tests run on one host.", "anchors": ["include/xitren/func/data.hpp:is_lsb"]}
{"id": "C61", "title": "Comparison operators agree with the numbers", "statement": "==,<,>,<=,>= on lsb_t/msb_t agree with the comparison of the values put in.", "quantifier": "every pair of values", "why_tests_cant": "2^128 pairs.", "anchors": ["include/xitren/func/data.hpp:operator=="]}
{"id": "C62", "title": "data<T> serialisation round-trips", "statement": "deserialize(serialize(x))==x for every x, serialize produces sizeof(T) bytes, and deserialize reads exactly sizeof(T) bytes.", "quantifier": "every trivially copyable value", "why_tests_cant": "All values.", "anchors": ["include/xitren/func/data.hpp:data::serialize", "include/xitren/func/data.hpp:data::deserialize"]}
{"id": "C63", "title": "A constructed packet is valid and carries header and fields", "statement": "packet(h,f) is valid(), its bytes are header, fields, checksum in this order, and a packet rebuilt from its bytes has the same header and fields and is valid.", "quantifier": "every header, fields, checksum function", "why_tests_cant": "All values and checksum functions.", "anchors": ["include/xitren/func/packet.hpp:packet", "include/xitren/func/packet.hpp:valid", "include/xitren/func/packet.hpp:to_array"]}
{"id": "C64", "title": "valid() is exactly the checksum test", "statement": "For arbitrary received bytes valid() is true iff the trailing bytes equal the checksum of the preceding ones; any change confined to the checksum bytes of a valid packet makes it invalid.", "quantifier": "every byte array", "why_tests_cant": "All byte arrays.", "anchors": ["include/xitren/func/packet.hpp:valid"]}
{"id": "C65", "title": "Static serialize equals the constructor's bytes", "statement": "packet::serialize(h,f) returns the same bytes as packet(h,f).to_array().", "quantifier": "every header and fields", "why_tests_cant": "All values.", "anchors": ["include/xitren/func/packet.hpp:serialize"]}
{"id": "C66", "title": "packet_accessor round-trip", "statement": "If serialize(header, fields, data[size]) returns true then deserialize returns the same header and fields, valid=true, the same number of elements and the same payload bytes.", "quantifier": "every header, fields, payload that fits", "why_tests_cant": "All payload lengths and contents.", "anchors": ["include/xitren/func/packet.hpp:packet_accessor::serialize", "include/xitren/func/packet.hpp:packet_accessor::deserialize"]}
{"id": "C67", "title": "packet_accessor refuses what does not fit", "statement": "serialize returns true iff the true total length is at most Max (while size*sizeof(Type)+overhead does not overflow size_t); when it returns false storage and size are unchanged.", "quantifier": "every element count with no overflow", "why_tests_cant": "All counts.", "anchors": ["include/xitren/func/packet.hpp:packet_accessor::serialize"]}
{"id": "C68", "title": "Where packet_accessor::serialize writes (finding)", "statement": "For every count whose total byte length does not overflow size_t (and whose source array is long enough) serialize stays inside its storage. Every count that passes the size test only because the total wrapped is undefined behaviour when a data pointer is given, and such counts exist for every frame format; with a null data pointer a count whose product wraps is accepted and a frame shorter than announced is produced.", "quantifier": "every element count in size_t, header, fields, storage content", "why_tests_cant": "The wrap needs astronomically large counts.", "anchors": ["include/xitren/func/packet.hpp:packet_accessor::serialize"]}
{"id": "C69", "title": "packet_accessor::deserialize is safe for well-sized frames", "statement": "For every storage content and every size between the fixed length and Max, deserialize reads only inside the storage, rejects sizes whose variable part is not a multiple of the element size, and otherwise reports the element count and checksum validity exactly.", "quantifier": "every storage content and size in range", "why_tests_cant": "All contents and sizes.", "anchors": ["include/xitren/func/packet.hpp:packet_accessor::deserialize"]}
{"id": "C70", "title": "packet_accessor::deserialize on other announced sizes (finding)", "statement": "For announced sizes outside [fixed length, Max]: if the size_t difference to the fixed length is not a multiple of the element size the frame is rejected; otherwise sizes above Max and sizes below the checksum size are undefined behaviour, and sizes between the checksum size and the fixed length yield a payload count reaching beyond the storage.", "quantifier": "every size in size_t, every storage content", "why_tests_cant": "Tests do not use it.", "anchors": ["include/xitren/func/packet.hpp:packet_accessor::deserialize", "include/xitren/func/packet.hpp:packet_accessor::size"]}
{"id": "C71", "title": "fast_pimpl storage fits the object", "statement": "Whenever the static checks pass, the object constructed in place lies inside the storage and at an address that is a multiple of its alignment.", "quantifier": "every Size, Alignment, sizeof(T), alignof(T), storage address", "why_tests_cant": "All parameter values.", "anchors": ["include/xitren/func/fast_pimpl.hpp:validator", "include/xitren/func/fast_pimpl.hpp:storage_"]}
{"id": "C72", "title": "fast_pimpl lifetimes balance and copies are independent", "statement": "Over any history of construct/copy/move/assign/destroy, each fast_pimpl holds exactly one live object, built once and destroyed once; copies carry the value, and changing one never changes another. A move hands the value over and leaves in the source what the contained type's own move leaves there, touching no third object; the same when the contained type's operation throws, and when an object is assigned or moved to itself. An operation left by an exception of the contained type builds and destroys nothing, and changes no object it does not name. The only requirement is to build where nothing lives and to use only what is alive.", "quantifier": "every history over any number of objects", "why_tests_cant": "All histories.", "anchors": ["include/xitren/func/fast_pimpl.hpp:fast_pimpl", "include/xitren/func/fast_pimpl.hpp:~fast_pimpl", "include/xitren/func/fast_pimpl.hpp:operator="]}
{"id": "C73", "title": "No callback after stop() returns", "statement": "Once stop() (or the destructor) has returned on any thread, the function is never called again and the worker has left its loop, whatever the number of threads using the object and whatever the callback does.", "quantifier": "every number of threads, every interleaving, every timing, also callbacks that call stop()", "why_tests_cant": "Interleavings.", "anchors": ["include/xitren/func/interval_event.hpp:stop", "include/xitren/func/interval_event.hpp:thread_"]}
{"id": "C74", "title": "Call schedule has no drift", "statement": "A check fires exactly when the periods of all earlier calls (in milliseconds) plus the period last set COUNTED IN NANOSECONDS have passed since the worker started (finding: the comparison mixes units, so the first call comes p nanoseconds, not p milliseconds, after the start); every check that fires is followed by exactly one call before the next check; with an unchanged period the n-th call (from 0) never comes before start + n periods, and a check made from then on (plus p nanoseconds) fires, one call per check: no drift, missed periods are made up.", "quantifier": "every sequence of clock readings, every period, every interleaving", "why_tests_cant": "All timings.", "anchors": ["include/xitren/func/interval_event.hpp:thread_"]}
{"id": "C75", "title": "stop() returns when stops do not overlap", "statement": "Any number of threads call stop() or the destructor, no two at the same time, and the callback does not call stop(): once a thread is past clearing the flag, ten rounds in which the worker and this thread each get a turn are enough for its stop() to return, and the two can take at most ten steps, none undefined, before it returns.", "quantifier": "every number of threads, every history with stops in turn, every schedule", "why_tests_cant": "Liveness.", "anchors": ["include/xitren/func/interval_event.hpp:stop"]}
{"id": "C76", "title": "stop() from the callback never returns (finding)", "statement": "From every state in which the function is running, if it calls stop() then on every continuation whatsoever the worker stays in that call, and no call of stop() by any thread ever returns.", "quantifier": "every reachable state, every continuation", "why_tests_cant": "Deadlock on all continuations.", "anchors": ["include/xitren/func/interval_event.hpp:stop"]}
{"id": "C77", "title": "The only unsafe accesses of the worker (finding)", "statement": "In every reachable state the worker's next step is defined except in two cases: its final notify_one() on an object already destroyed, and reading the periods before the constructor has initialised them (the thread is started first). Both are reachable.", "quantifier": "every interleaving, every number of threads", "why_tests_cant": "Interleavings.", "anchors": ["include/xitren/func/interval_event.hpp:~interval_event", "include/xitren/func/interval_event.hpp:thread_"]}
{"id": "C78", "title": "lru holds at most Size recency entries", "statement": "Over any history of put (Size >= 1) no step is undefined, the recency list has no duplicate keys and at most Size entries; a put of a key that was not evicted before puts it first, and only a new key on a full list pushes out exactly the last entry. With Size = 0 the first put is undefined behaviour.", "quantifier": "every history of put", "why_tests_cant": "All histories.", "anchors": ["include/xitren/cache/lru.hpp:put"]}
{"id": "C79", "title": "lru never forgets a key (finding)", "statement": "The table holds exactly the keys ever put, so n distinct keys leave n entries whatever Size is; a key evicted from the recency list is evicted for ever: putting it again throws cache_missed (or, without exceptions, is dropped silently) and changes nothing.", "quantifier": "every history of put", "why_tests_cant": "Needs eviction and re-insertion.", "anchors": ["include/xitren/cache/lru.hpp:put"]}
{"id": "C80", "title": "lru::put never updates a value (finding)", "statement": "Whatever is put later, the value and time stored for a key, in the table and in the list, are those of its first put.", "quantifier": "every key, value, history", "why_tests_cant": "No test exists.", "anchors": ["include/xitren/cache/lru.hpp:put"]}
{"id": "C81", "title": "lru::get never returns a value (finding)", "statement": "get on a key never put returns an empty optional; on a key whose first put is at least expired_after old it throws cache_timeout (or returns an empty optional without exceptions); on any other key control runs off the end of the function, which is undefined behaviour. In no case does it return a value.", "quantifier": "every key and history", "why_tests_cant": "No test exists.", "anchors": ["include/xitren/cache/lru.hpp:get"]}
{"id": "C82", "title": "deserialize_no_check announces only bytes of the frame", "statement": "For every size between the fixed length and Max, deserialize_no_check returns positions of header, fields and payload and the largest element count that fits in front of the checksum; it agrees with deserialize on count and payload position whenever deserialize accepts the frame.", "quantifier": "every size in range, every storage content", "why_tests_cant": "All sizes.", "anchors": ["include/xitren/func/packet.hpp:packet_accessor::deserialize_no_check"]}
{"id": "C83", "title": "Modifying header or fields in place does not refresh the checksum", "statement": "Assigning through header() or fields() changes exactly that part, keeps the other part and the stored checksum, and the packet is valid() afterwards iff the stored checksum is the checksum of the new bytes.", "quantifier": "every packet content, every new header or fields", "why_tests_cant": "All contents and checksum functions.", "anchors": ["include/xitren/func/packet.hpp:packet::header", "include/xitren/func/packet.hpp:packet::fields", "include/xitren/func/packet.hpp:packet::valid"]}
{"id": "C84", "title": "Overlapping stop() calls can block each other for ever (finding)", "statement": "If a stop() has cleared the flag after the worker left its loop, every thread waiting in stop() waits for ever, on every continuation; two overlapping stop() calls can get there. A stop() made after another one has returned returns at once.", "quantifier": "every reachable state, every continuation, every number of threads", "why_tests_cant": "Depends on the interleaving of three threads.", "anchors": ["include/xitren/func/interval_event.hpp:stop"]}
{"id": "C85", "title": "At most one more call once stop() has cleared the flag", "statement": "From the moment any stop() clears the flag at most one further call of the function starts; none at all if that happens before the worker has started.", "quantifier": "every interleaving, every number of threads", "why_tests_cant": "Interleavings.", "anchors": ["include/xitren/func/interval_event.hpp:stop", "include/xitren/func/interval_event.hpp:thread_"]}
{"id": "C86", "title": "Reading received lsb_t / msb_t fields", "statement": "On a little-endian host, a field whose bytes were received from outside reads, through get(), as the number those bytes spell: least significant byte first for lsb_t, most significant first for msb_t; and the received object is the object that constructing from that number gives.", "quantifier": "every byte string of each width", "why_tests_cant": "2^64 byte strings per width.", "anchors": ["include/xitren/func/data.hpp:lsb_t::get", "include/xitren/func/data.hpp:msb_t::get", "include/xitren/func/data.hpp:data::deserialize"]}
{"id": "C87", "title": "Default-constructed packets and accessors (finding)", "statement": "A default packet is all zero bytes of the full length, and valid exactly if the checksum of zeros is the zero checksum. A fresh packet_accessor holds zero bytes and size 0; deserializing it before anything was stored is undefined behaviour whenever the element size divides 2^64 minus the fixed length (always for one-byte elements), and an invalid result otherwise.", "quantifier": "every header, fields, checksum and element type, every checksum function, every capacity", "why_tests_cant": "Depends on all layouts and checksum functions.", "anchors": ["include/xitren/func/packet.hpp:packet", "include/xitren/func/packet.hpp:packet_accessor::deserialize"]}
{"id": "C88", "title": "Value observables stay well defined whatever their callbacks do to them", "statement": "Callbacks of a bounded values::observable may themselves add, remove and clear observers, notify and update the observable, to any depth. As long as none of the operators used, in calls or in callbacks, overflows its own signed addition, no sequence of calls is undefined behaviour; and every observed that receives a value or a disconnect had been added successfully before, and every observed holds the value it was given last. Assignment and the postfix operators never overflow; for types narrower than int neither do ++x, --x and += / -= with operands that keep the sum inside int; for unsigned types of int width or more nothing does.", "quantifier": "all integer types, capacities, call sequences, all callbacks (arbitrary programs depending on the history), all nesting depths", "why_tests_cant": "Unboundedly many re-entrant callback programs.", "anchors": ["include/xitren/comm/values/observable.hpp:notify_observers", "include/xitren/comm/values/observable.hpp:add_observer", "include/xitren/comm/values/observable.hpp:clear_observers", "include/xitren/comm/values/observed.hpp:notification"]}
{"id": "C89", "title": "An unconditional reaction never returns (finding)", "statement": "values::observable has no recursion guard and no equality check: if the on_update callbacks assign to the observable every time they are told a value (even the same one), then with at least one observer registered every operator that does not overflow recurses without end.", "quantifier": "all integer types, capacities, reachable states, operators, every recursion budget", "why_tests_cant": "Non-termination cannot be observed by a terminating test.", "anchors": ["include/xitren/comm/values/observable.hpp:notify_observers", "include/xitren/comm/values/observable.hpp:operator="]}
{"id": "C90", "title": "Reacting observers and the order of registration (finding)", "statement": "If one observed answers every value other than c by assigning c, then after an update publishing p <> c the value is c, the observeds registered up to and including the reacting one hold c, those registered after it hold the replaced p, and the operator returns p; all copies agree with value() iff the reacting observed is the last registered. If one observed clears the observers while being told a value, the ones registered after it are disconnected first and then still given the value.", "quantifier": "all integer types, capacities, operators, positions of the reacting observed, reachable states", "why_tests_cant": "Every number of observers and every position.", "anchors": ["include/xitren/comm/values/observable.hpp:notify_observers", "include/xitren/comm/values/observable.hpp:clear_observers", "include/xitren/comm/values/observed.hpp:notification"]}
{"id": "C91", "title": "Unbounded value observable without removals delivers exactly", "statement": "As long as nothing has been removed from an unbounded value observable and its callbacks leave it alone: add_observer answers already_contains exactly for those registered and otherwise ok and appends; an operator that does not overflow stores the value of the type, hands every registered observed the published value exactly once in order of registration, and leaves all other observeds as they were; clear_observers disconnects each registered one exactly once, in order, and afterwards no operator reaches anyone.", "quantifier": "all integer value types, all sequences of add, clear, notify and operator calls, all operators and operands, all observeds", "why_tests_cant": "The number of observeds and the call sequences are unbounded.", "anchors": ["include/xitren/comm/values/observable.hpp:419-479", "include/xitren/comm/values/observable.hpp:282-392", "include/xitren/comm/values/observed.hpp:58-81"]}
{"id": "C92", "title": "Unbounded value observable changed from its own callbacks", "statement": "While an unbounded value observable is handing out a value, a callback that successfully adds an observed or clears the observeds makes the update undefined; if no callback does either, no sequence of calls and nested updates is undefined (operators that cannot overflow). A callback that removes an observed during an update is defined but changes who is updated: removing itself or an earlier one makes the next one miss the update, removing a later one that is not the last makes that one miss it, and in both cases the last registered one is updated again, while removing the last one has no effect. Whatever the callbacks do, after every sequence of calls that ends the value is that of all operators applied and every observed holds what it was given last.", "quantifier": "all callback programs, all nesting, all call sequences, all registered lists, all removed observeds", "why_tests_cant": "Iterator invalidation is silent in a test run, and the callbacks and their nesting are arbitrary.", "anchors": ["include/xitren/comm/values/observable.hpp:419-479"]}
{"id": "C93", "title": "Modules constructed while a message is distributed", "statement": "When handlers (or the manager's data()) construct modules while a message is being distributed, nobody is lost: the modules registered before are all served, in order, and the newcomers that receive the type get the message in the same round, after them.", "quantifier": "every set of modules, every behaviour of the handlers that does not destroy modules, every hash function injective on the types in use", "why_tests_cant": "Depends on what arbitrary handlers do in the middle of a dispatch.", "anchors": ["include/xitren/comm/mediator.hpp:distribute", "include/xitren/comm/mediator.hpp:add_module", "include/xitren/comm/mediator.hpp:manager::send"]}
{"id": "C94", "title": "A module destroyed while a message is distributed", "statement": "When the handler of one module destroys a module during a dispatch, then: if the destroyed one was registered after it, only that one misses the message; otherwise (itself or an earlier one) the module registered right after the handler's module misses the message although it stays registered; all others get it once, in order. If the destroyed module is the sender of the message and there is a module left to look at, distribute() reads the destroyed sender: undefined behaviour.", "quantifier": "every number of modules, every position of the destroying and of the destroyed module, module::send and manager::send", "why_tests_cant": "Depends on positions of the two modules; the undefined read usually goes unnoticed.", "anchors": ["include/xitren/comm/mediator.hpp:distribute", "include/xitren/comm/mediator.hpp:remove_module"]}
{"id": "C95", "title": "An exception thrown by a handler ends the dispatch", "statement": "An exception leaving a handler or the manager's data() leaves the send: the modules up to the one that threw have got the message once each in order, those after it get nothing, the registration is unchanged apart from modules constructed meanwhile, and the manager stays usable. If no handler throws, no send does.", "quantifier": "every set of modules, every behaviour of handlers that does not destroy modules, nested sends and catching handlers included", "why_tests_cant": "Arbitrary handlers, nesting and catching.", "anchors": ["include/xitren/comm/mediator.hpp:distribute", "include/xitren/comm/mediator.hpp:manager::send", "include/xitren/comm/mediator.hpp:convert_field"]}
{"id": "C96", "title": "on_fail callbacks may use the heap, but cannot rescue the failing call and must not retry", "statement": "Whatever a well-behaved on_fail callback does with the same heap (free, allocate, write, reset), every call is defined, returns exactly what it would have returned without the callback, and the callback's own calls act as if they had been made right after it; so a refused request returns null even if the callback frees enough memory. Callbacks run exactly at refused requests made while one is set, other than a callocate whose product does not fit, also at those made by the callback itself. If the callback never requests memory every call returns; if it begins by requesting at least as much again, the refused call never returns.", "quantifier": "every callback behaviour (an arbitrary program of heap calls depending on the whole history, nested to any depth), every history of permitted calls, every buffer address and every buffer size with room for a block header besides the end marker (smaller ones: C13, C14)", "why_tests_cant": "The callback is arbitrary user code re-entering the heap at any depth and in any state.", "anchors": ["include/xitren/allocators/static_heap.hpp:on_fail", "include/xitren/allocators/static_heap.hpp:allocate", "include/xitren/allocators/static_heap.hpp:callocate"]}
{"id": "C97", "title": "The heap is not safe to share between threads (violated expectation)", "statement": "allocate contains calls to suspend and resume the scheduler, but they do nothing. For every state of the heap and every request that can be served, two threads making that request concurrently can both be given the same block; a thread that is not interrupted gets what a plain allocate gives.", "quantifier": "every reachable heap state and every request size that can be served there", "why_tests_cant": "Depends on an interleaving that a test cannot force and that exists in every state.", "anchors": ["include/xitren/allocators/static_heap.hpp:v_task_suspend_all", "include/xitren/allocators/static_heap.hpp:allocate"]}
{"id": "C98", "title": "Heap statistics describe exactly the free gaps", "statement": "v_port_get_heap_stats reports the number of maximal free stretches between the live blocks, the size of the largest (0 if none), the smaller of 4294967295 and the size of the smallest, the free bytes, which equal the sum of the stretches, the low-water mark and the counters. A request of n>0 bytes can be served exactly when roundup8(n+16) is at most the largest. On a full heap the smallest free block is reported as 4294967295 bytes.", "quantifier": "every reachable heap state, every request size, every buffer address and every buffer size with room for a block header besides the end marker (smaller ones: C13, C14)", "why_tests_cant": "The report has to match the layout left by any history of calls.", "anchors": ["include/xitren/allocators/static_heap.hpp:v_port_get_heap_stats"]}
{"id": "C99", "title": "Chained stages: items travel in order, front-to-back destruction is safe", "statement": "When each stage's function pushes its result into the next stage, the whole load fits every BufferSize, and stages are destroyed front to back, every stage processes the composed images of the accepted items in the order the first stage accepted them; when all stages have ended, every stage has processed all of them. Whatever the load, front-to-back destruction never touches a destroyed stage and each destructor returns once its worker has had a bounded number of steps. Destroying the second stage while the first still works can push into a destroyed stage.", "quantifier": "every number of stages, functions, buffer sizes, producers, interleavings", "why_tests_cant": "Chains of arbitrary length and all interleavings of their workers.", "anchors": ["include/xitren/comm/pipeline_stage.hpp:push", "include/xitren/comm/pipeline_stage.hpp:~pipeline_stage"]}
{"id": "C100", "title": "The setters race with the worker until stop() has returned", "statement": "period(v) and period_between_checks(v) write plain members. Until some stop() clears the run flag, from every state the worker alone comes within six steps to a read of either member at a moment when a setter call is possible, with nothing ordering the two. After any stop() has returned the worker never reads either member again.", "quantifier": "every reachable state, every number of threads", "why_tests_cant": "Races are about all interleavings.", "anchors": ["include/xitren/func/interval_event.hpp:period", "include/xitren/func/interval_event.hpp:period_between_checks"]}
{"id": "C101", "title": "Allocators on the same heap are interchangeable", "statement": "A program using any number of allocator objects (made from a heap, copied, rebound to other types) on any number of heaps, which returns each block through any allocator of the heap it came from, never does anything undefined: a copied or rebound allocator has the heap of the original; each allocate is the request of count times object size to the allocator's own heap and gives an aligned block there disjoint from every block held in any heap, or throws and leaves that heap unchanged; other heaps are untouched; blocks not returned keep their bytes; each heap by itself has the history of a heap with a single client, so everything said of one heap (C01-C15) holds of each. deallocate through another allocator of the same heap, even one comparing unequal, and with any count argument, has the same effect.", "quantifier": "every number of heaps and allocators, every permitted call history", "why_tests_cant": "All call histories over any number of objects.", "anchors": ["include/xitren/allocators/static_heap_allocator.hpp:deallocate", "include/xitren/allocators/static_heap_allocator.hpp:static_heap_allocator"]}
{"id": "C102", "title": "The observable with a mutex, shared by threads", "statement": "In the mutex build of the dynamic observable, whatever threads do with any number of observables (register, deregister, clear, notify, with callbacks that make further calls): what has happened at one observable is at every moment a sequence of whole calls, each done to exactly the list the previous ones left - a notification reaches exactly those registered when it got the lock, once each, in order, and calls that throw release the lock - and possibly the first part of one more; a thread that has finished has made each of its calls once, in order. If callbacks only call observables lower in some order, there is never undefined behaviour and never a deadlock, and under any fair scheduling all threads finish. Without such an order: a callback that calls the observable it was called from (a one-shot observer deregistering itself) is undefined, and two observables that forward to each other, although no value is forwarded twice, can deadlock for ever.", "quantifier": "every number of threads and observables, every program, every behaviour of callbacks, every schedule; for the second part every acyclic forwarding", "why_tests_cant": "Interleavings, deadlock freedom and termination over all schedules; the mutex is only there with a compile-time macro.", "anchors": ["include/xitren/comm/observer.hpp:observable<T,false,Size>::add_observer", "include/xitren/comm/observer.hpp:observable<T,false,Size>::remove_observer", "include/xitren/comm/observer.hpp:observable<T,false,Size>::clear_observers", "include/xitren/comm/observer.hpp:observable<T,false,Size>::notify_observers"]}
{"id": "C103", "title": "A copied heap manages the original's memory", "statement": "static_heap has the compiler's copy constructor. A copy of a heap, used on its own, answers every well-behaved client exactly as the original would have - the same pointers, results, counters, callback calls - so every block it hands out lies in the original's buffer and its own buffer is never read or written. Used side by side they collide: a block one of them takes from the lowest free stretch is handed out again by the other to the next request of any size up to what was free when copied; with a heap copied right after construction, the first two blocks are always the same block. A block held at the time of copying is counted as free only by the one that releases it first; the release through the other is ignored.", "quantifier": "every heap size and placement, every distance between the two objects, every history before the copy, every session after it; for the collision every request size", "why_tests_cant": "Equality of answers over all histories after all histories; a test that only uses the copy sees nothing wrong.", "anchors": ["include/xitren/allocators/static_heap.hpp:18", "include/xitren/allocators/static_heap.hpp:155-156", "include/xitren/allocators/static_heap.hpp:213-214", "include/xitren/allocators/static_heap.hpp:534-546"]}
{"id": "C104", "title": "Copies and lifetimes of static observables", "statement": "The static observable has the compiler's copy constructor and assignment. In every history of several observables, with any callbacks: add, remove and notify answer as the observers registered with that very observable dictate, a copy starting out with those of the original and separate from it afterwards; a notification is refused exactly when the observable is closed, that is in the middle of one or copied or assigned from a closed one. A copy of an open observable notifies the original's observers with itself as the source; the end of the copy sends each of them disconnect although the original keeps notifying them; assignment tells nobody anything and replaces the observers. A copy taken during a notification of the original refuses every later notification and delivers nothing, until it is assigned or destroyed. Not guarded against: a data callback that destroys the observable calling it, or assigns a new one to it while a second observer is registered (a null pointer is called), is undefined.", "quantifier": "every number of observables with any capacities, every sequence of constructions, copies, assignments, destructions, add/remove/clear/notify, every callback behaviour including all of these", "why_tests_cant": "Every history and callback behaviour; the copy is implicit, so no line of the class shows it.", "anchors": ["include/xitren/comm/observer.hpp:66", "include/xitren/comm/observer.hpp:83", "include/xitren/comm/observer.hpp:150-163", "include/xitren/comm/observer.hpp:169-177"]}
{"id": "C105", "title": "Networks of static observables", "statement": "With any number of static observables whose callbacks may add, remove, clear and notify any of them (also the one calling), but do not create or destroy observables: no call is ever undefined; if disconnect callbacks do not clear, every call ends - nested at most 2n+2 deep for n observables - however the observables forward to each other; and between the client's calls every observable accepts notifications again. When observers pass on the value they are told to another observable, a notification reaches exactly those observables, and all their observers, to which some chain of forwarding leads, cycles or not, and disconnects nobody. (It may get there more than once.)", "quantifier": "every network of observables, every registration state, every callback behaviour within the stated limits, every forwarding graph, every value", "why_tests_cant": "All graphs, including all cyclic ones; termination and reachability are unbounded statements.", "anchors": ["include/xitren/comm/observer.hpp:133-140", "include/xitren/comm/observer.hpp:150-163"]}
{"id": "C106", "title": "Observers' lifetimes and the scope of an observable", "statement": "An observer's destructor tells no observable. With callbacks that do nothing, a client's call on static observables is undefined exactly when it goes through the registered observers (clear, destroy, an accepted notify) and one of them has ended; in particular removing an observer that has ended is fine. Finding: a scope that declares an observable and then the observers it registers always ends in a call of an observer that no longer exists, whatever the callbacks do, because the observable's destructor, which runs last, disconnects its observers; with the observers declared first each of them is disconnected once, in the order of registration. A client that adds only existing observers and ends one only when it is registered with no living observable, with callbacks that also add only existing ones and leave lifetimes alone, never has an ended observer called, even though an observer removed during a notification may still be called in it; and if moreover the callbacks call living observables only and disconnect callbacks do not clear, every call returns.", "quantifier": "every number of observables and observers, every interleaving of lifetimes and calls, every set of observers that fits the capacity, every callback behaviour (within the stated limits for the last part)", "why_tests_cant": "Calling an ended observer is undefined behaviour: a test may pass by luck. The safe discipline quantifies over all histories and all callbacks.", "anchors": ["include/xitren/comm/observer.hpp:31", "include/xitren/comm/observer.hpp:83", "include/xitren/comm/observer.hpp:133-140", "include/xitren/comm/observer.hpp:150-163"]}
{"id": "C107", "title": "Derived values settle", "statement": "With any number of bounded value observables whose callbacks may use any of them: no call is undefined as long as no operator overflows, and each observable keeps its own observers apart from those of the others. If observeds are used to keep derived observables up to date (the callback reads all inputs of a formula with value() and assigns the result, and is registered with each input), then after any operator on any observable that returns, every derived observable that depends on it, directly or through others, equals its formula over the current values of its inputs, as does every other one that did before (the updated one itself excepted); this also holds for x++, x-- and --x. No observable outside changes. The observeds of all those observables hold their values too, provided none is registered twice.", "quantifier": "every set of observables of every type and capacity, every dependency graph and formula, every reachable state, every operator; for definedness every callback program", "why_tests_cant": "All dependency graphs, all formulas, all registration orders; correctness of an unbounded recursive propagation.", "anchors": ["include/xitren/comm/values/observable.hpp:30-34", "include/xitren/comm/values/observable.hpp:68-146", "include/xitren/comm/values/observable.hpp:230-239", "include/xitren/comm/values/observed.hpp:74-81"]}
{"id": "C108", "title": "Cycles, repeated recomputation and glitches in networks of derived values (finding)", "statement": "An update of an observable that does not overflow returns exactly if no cycle of derived values can be reached from it; otherwise it recurses without end. When it returns, each dependent observable has been assigned, and each of its observeds told, once for every way that leads to it rather than once. In a diamond (a and b computed from s, d from both) the observed of d is first told a value computed from the new a and the old b, a value d should never have had.", "quantifier": "every network, every reachable state, every operator that does not overflow; every diamond, formulas and values", "why_tests_cant": "Termination for all graphs, an equality of counts for all graphs, and intermediate states.", "anchors": ["include/xitren/comm/values/observable.hpp:230-239", "include/xitren/comm/values/observed.hpp:74-81"]}
{"id": "C109", "title": "Lifetimes of mediator managers and modules (finding)", "statement": "With any number of managers and modules that programs and handlers construct, copy, assign, redirect and destroy: undefined behaviour always means that the call in progress cannot go on for one of the listed reasons - it constructs over or uses an object that does not exist, the table is full, the module's manager is gone, the sender of the message being distributed is gone, or the manager lists a module that is gone; construction, copying and destruction are undefined exactly then, and so are sends if handlers return at once. A handler is only ever started for a module that exists and is listed, with a type it receives. As long as managers are not copied or assigned and mediator_ is not changed, managers never list a module that is gone. A manager destroyed before one of its modules makes that module's destructor and sends undefined; a module whose mediator_ was changed is not removed from the manager that lists it, and that manager's next send is undefined.", "quantifier": "every history of constructions, copies, assignments and destructions of any number of managers and modules, every behaviour of handlers and of manager::data, every hash function", "why_tests_cant": "All orders of construction and destruction of several objects, with handlers that take part; dangling pointers usually go unnoticed when run.", "anchors": ["include/xitren/comm/mediator.hpp:24-36", "include/xitren/comm/mediator.hpp:135-140", "include/xitren/comm/mediator.hpp:277-301", "include/xitren/comm/mediator.hpp:339-348"]}
{"id": "C110", "title": "Several managers, and copies of modules", "statement": "A message sent by a module reaches the data() of the manager it points to and then, with the bytes data() left in the message, exactly the modules listed by that manager that receive the type, once each in order, and no module of another manager; manager::send likewise. A copy of a module speaks like its original (same manager, same receivers and, if data() leaves the message as it is, same bytes) but never receives anything, and destroying the copy changes no manager, even one whose table is full.", "quantifier": "every set of managers, modules and copies, every reachable state, handlers that send anything through any manager (for what copies receive: any handlers that leave managers uncopied), every hash function that tells the type from those in use", "why_tests_cant": "All configurations of several managers, and an absence (never receives) over all histories.", "anchors": ["include/xitren/comm/mediator.hpp:124-140", "include/xitren/comm/mediator.hpp:147-153", "include/xitren/comm/mediator.hpp:308-348"]}
{"id": "C111", "title": "Copies of managers (finding)", "statement": "A copy of a manager lists the modules its original listed when the copy was made and goes on listing exactly those, whatever is later constructed on or destroyed with the original: manager::send through the copy reaches those of them that receive the type, not modules constructed later. Once one of them has been destroyed, a send through the copy is undefined; as long as all exist it returns. A manager that is assigned to forgets its own modules; these still send through it, to the modules of the other manager.", "quantifier": "every reachable state, every history after the copy that leaves the copy itself alone, every message", "why_tests_cant": "All histories after the copy; dangling pointers usually go unnoticed when run.", "anchors": ["include/xitren/comm/mediator.hpp:264-270", "include/xitren/comm/mediator.hpp:375-380", "include/xitren/comm/mediator.hpp:288-319"]}
{"id": "C112", "title": "A running pipeline stage keeps up with finished pushes, and waits behind an unfinished one", "statement": "While a stage is running, once the pushes of the first j items have returned, the function has been called with all of them, in push order, as soon as the worker thread has had five of its steps per item still missing and one more, whatever the producers and the destructor do in between (at most BufferSize items pushed altogether; beyond that the number of calls still catches up like this). So with no push under way everything pushed gets processed without closing the stage. The same holds for every queue of a pool that has a worker. Conversely a producer that stops inside push, after it was given its place and before its item is stored, holds back its own item and every later one, also those whose pushes have returned, for as long as it is stopped, however long the worker runs.", "quantifier": "for every BufferSize > 0, all producer programs, every interleaving before and after the moment looked at, every j, every stopped producer, every PoolSize up to 8", "why_tests_cant": "progress is a statement about all schedules that give the worker enough steps; a test observes one, and a timeout in a test cannot tell slow from stuck", "anchors": ["include/xitren/comm/pipeline_stage.hpp:56-74", "include/xitren/comm/pipeline_stage.hpp:108-133", "include/xitren/comm/pipeline_stage_pool.hpp:63-90", "include/xitren/comm/pipeline_stage_pool.hpp:111-131"]}
{"id": "C113", "title": "Value observables and observeds with lifetimes: what is undefined, and nothing else", "statement": "Programs that construct, use and destroy any number of value observables (bounded and unbounded) and observeds, also from within callbacks: behaviour is undefined only in a call that is given an object that does not exist (or constructs one over another), in an operator that overflows, or in a call that goes through the observeds of an observable (notify, operators, clear, the destructor) when, after a callback, that observable has ended or, if unbounded, been cleared or added to, or when the next of the pointers it goes through is to an observed that has ended. No call goes on past such a point: every callback goes to the observed whose turn it is at that moment, which exists, with the value published; every call returns what it should, and those that go through observeds only after as many callbacks as there were observeds at the beginning. With a fixed capacity no observed is ever listed twice, nor more of them than there is room for. If observeds end only outside callbacks and only when no observable lists them, ended observeds cause no undefined behaviour whatever else the callbacks do. With callbacks that return at once a call is undefined exactly when one of its objects does not exist, a listed observed has ended or the operator overflows, and otherwise serves each listed observed once and in order; an observable that ends before its observeds disconnects each of them once, after which they end without harm.", "quantifier": "every program, every set of observables of every integer type and capacity, every callback program depending on all that happened before, every nesting; the last part for callbacks that return at once", "why_tests_cant": "whether a callback may end, remove or add objects while a loop over raw pointers runs depends on the whole history and the nesting of calls; a test that reads a dangling pointer often passes.", "anchors": ["include/xitren/comm/values/observable.hpp:158-239", "include/xitren/comm/values/observable.hpp:404-479", "include/xitren/comm/values/observed.hpp:27-81"]}
{"id": "C114", "title": "Ending observeds and observables of values (finding)", "statement": "The destructor of an observed tells no observable: with callbacks that return at once, ending an observed that is still listed makes the next notification, operator, clear or destruction of its observable undefined, and another observed constructed at the same address is told in its place although nobody added it. With an unbounded observable removing the observed first does not help if it is the last one listed: remove answers ok and the next call that goes through the observeds is still undefined, whereas with a bounded one the removed observed may end and the others are told once each. But also with a bounded one, a callback that removes the last observed and ends it during a notification makes that notification undefined, because it goes on to the removed one; and so does a callback that ends the observable it is being told by.", "quantifier": "every reachable state, every list of observeds, every value, every integer type and capacity", "why_tests_cant": "the failing accesses go through dangling pointers; whether they are seen depends on memory reuse, and the outcome on the position of the observed in the list.", "anchors": ["include/xitren/comm/values/observed.hpp:50-81", "include/xitren/comm/values/observable.hpp:194-239", "include/xitren/comm/values/observable.hpp:438-479"]}
{"id": "C115", "title": "Networks of stages and pools: nothing is lost, doubled or undefined when feeders are destroyed first", "statement": "Any number of pipeline stages and pools whose functions push any items into any of them (branching, joining, back into their own stage), with any threads pushing from outside: if a stage or pool is destroyed only when all others whose functions push into it have been destroyed and no outside thread will push into it any more, nothing is ever undefined. Every thread's pushes arrive in its own order; while no queue was given more items than BufferSize every queue is worked off in the order of its pushes, and a stage that only one thread or one other stage pushes into is called with exactly what that one pushes, in that order. When everything has been destroyed, all queues have workers and no queue was given more items than BufferSize, every function has been called exactly once with every item pushed into its node, from outside or by a function (pools whose function pushes into the same pool excepted). The destructor of a node whose function does not push into it returns after a number of steps of each worker that depends on the items waiting and on how much one call pushes. Two limits: a pool whose function pushes back into the same pool can lose an item while it is destroyed, though nothing is undefined and all destructors return; and stages that feed each other in a cycle cannot be destroyed safely in either order.", "quantifier": "every number and kind of nodes, every BufferSize > 0, all functions (depending on everything that happened before), all outside threads and programs, every interleaving, every choice of the pool's queue; PoolSize up to 8, and 8 where nothing is to be lost", "why_tests_cant": "the shape of the network, the functions and the interleaving of all workers are unbounded; loss at shutdown shows only in rare schedules", "anchors": ["include/xitren/comm/pipeline_stage.hpp:45-133", "include/xitren/comm/pipeline_stage_pool.hpp:56-131"]}
{"id": "C116", "title": "What a pipeline function is told and what is measured, under every interleaving", "statement": "Every call of the function of a stage or pool is told its worker's number (pool) and the measurements of the last at most ten of all the calls this worker has made, none missing and none of another worker: their times and backlogs added up and divided by ten. The backlog measured when a call returns is the number of items accepted into that worker's queue and not yet removed at that moment, converted to int (exact below 2^31), the time is what the clock says then, converted likewise, and the queue never had more removed than accepted. Nothing is undefined except for a pool worker numbered 8 or above and where the last ten measurements, added newest first, leave the range of int; so never with PoolSize at most 8 while no measurement exceeds 214748364.", "quantifier": "every PoolSize, BufferSize > 0, any number of pushing threads and programs, every interleaving of pushes (operand by operand in the search for a queue), workers, outside callers and destructor, all clock readings", "why_tests_cant": "depends on clock readings, on the number of earlier calls and on pushes that happen while the function runs", "anchors": ["include/xitren/comm/pipeline_stage.hpp:76-94", "include/xitren/comm/pipeline_stage.hpp:108-133", "include/xitren/comm/pipeline_stage_pool.hpp:63-90", "include/xitren/comm/pipeline_stage_pool.hpp:133-151"]}
{"id": "C117", "title": "Choice of a pool's queue while other threads run", "statement": "When one thread alone pushes into a pool, whatever the workers do while it searches, the queue it takes holds at that moment at most as many items as any queue held when push was entered (as long as some queue held fewer than INT_MAX), so at most an eighth of everything that was waiting. With several pushing threads there is no such bound: any number of threads pushing one item each into an empty pool can all take the first queue. Moreover in every reachable state where the last queue is empty and its worker is waiting for work while all other queues hold items, a push searching during another thread's push can take a queue with items waiting although the last queue is empty both before and after: tail and head are read one after the other and their difference wraps.", "quantifier": "every BufferSize > 0, every PoolSize (8 or more for the last), all programs of fewer than 2^64 pushes, every interleaving, both orders of reading tail and head; any number of threads; every such reachable state", "why_tests_cant": "the outcome depends on which counter is read when, relative to workers and other pushes", "anchors": ["include/xitren/comm/pipeline_stage_pool.hpp:111-131", "include/xitren/comm/pipeline_stage_pool.hpp:161-176"]}
{"id": "C118", "title": "Asking a stage for its statistics is safe only inside its function", "statement": "time_for_unit() and buffer_utilization() of a stage return a tenth of the sum of the last at most ten measurements the worker has added. Asked while a call of the function runs they return exactly what that call was told. If they are asked only while the function runs and the call does not return before the answer is there, they are never computed while the worker changes the statistics. Otherwise they can be: in every reachable state where a call is running and a thread is about to ask, the call returning just before makes the two overlap, a data race.", "quantifier": "every BufferSize > 0, any pushing and asking threads, every interleaving, all clock readings; every reachable state with a running call", "why_tests_cant": "a data race that shows only in rare interleavings; the guarantee is over all interleavings", "anchors": ["include/xitren/comm/pipeline_stage.hpp:76-94", "include/xitren/comm/pipeline_stage.hpp:123-131"]}
{"id": "C119", "title": "Timers whose functions stop one another", "statement": "Several interval_event objects exist and their functions, as well as any number of other threads, call stop() on them. Whoever calls it, after stop() of a timer has returned the timer's function is not called again, and every call of it has come back by then. If every timer is stopped by one thread only and functions stop only timers of lower rank, every stop() returns within a number of turns known beforehand from the rank and from how many timers one function stops. Without the ranks this fails: functions about to stop one another in a circle can be scheduled so that none of them ever ends and nobody's stop() of these timers returns. Without the single owner it fails too: two threads about to stop the same timer can be scheduled so that neither stop() ever returns.", "quantifier": "all numbers of timers and threads, all functions that stop other timers depending on everything recorded so far, all schedules, wake-ups and clock outcomes; for returning, all fair rounds; for hanging, all continuations", "why_tests_cant": "Termination is about all schedules of all networks, and a hang is about all continuations.", "anchors": ["include/xitren/func/interval_event.hpp:stop", "include/xitren/func/interval_event.hpp:interval_event"]}
{"id": "C120", "title": "The heap's future depends only on the blocks that are held", "statement": "Two histories of calls that leave the client with the same blocks, in whatever order they were obtained, cannot be told apart by anything done later: every call gives the same result and the same free_heap_size(). In particular allocating a block and freeing it leaves no trace in later results.", "quantifier": "all placements and sizes of the heap, all pairs of histories, all later sequences of permitted calls", "why_tests_cant": "It compares all pairs of histories and all their continuations.", "anchors": ["include/xitren/allocators/static_heap.hpp:allocate", "include/xitren/allocators/static_heap.hpp:deallocate"]}
{"id": "C121", "title": "What fits: freeing helps, a certain bound, and fragmentation (finding)", "statement": "Freeing a held block never makes a request fail that would have succeeded, and a smaller request, or one made with fewer blocks held, succeeds whenever the larger one does and at an address no higher. A request of n bytes, of which needed(n) counts the header and rounding, is certain to succeed when free_heap_size() exceeds (needed(n) - 8) times one more than the number of blocks held. The number of free bytes alone promises little: for every size there is a history after which about half of the heap is free and no request of larger footprint succeeds.", "quantifier": "all placements and sizes of the heap, all histories, all request sizes", "why_tests_cant": "The bound is about every history, and fragmentation about every size.", "anchors": ["include/xitren/allocators/static_heap.hpp:allocate", "include/xitren/allocators/static_heap.hpp:deallocate", "include/xitren/allocators/static_heap.hpp:free_heap_size"]}
{"id": "C122", "title": "Fixed-size observable: threads that only notify", "statement": "Observers are registered first, then any number of threads call notify_observers on one fixed-size observable without a lock (accesses interleaving in any order). Nothing goes out of bounds; every call either returns ok after delivering its value to every registered observer exactly once, in order of registration, or returns notify_recursion_detected and delivers nothing; an unfinished call has delivered to the first so many. A thread has made all its calls after as many steps per call as there are observers and six more, whatever the others do. A call is turned away only while another thread's call is under way, which returns ok later. When all have returned the observable is as before, so it is not left refusing. But the check for recursion is no lock: two threads can both pass it, every observer gets both values, the second before the first call has returned.", "quantifier": "every capacity, every single-threaded history before with any callbacks, any number of threads and notifications, every interleaving of single reads and writes", "why_tests_cant": "the window between reading and setting the flag is two instructions wide", "anchors": ["include/xitren/comm/observer.hpp:150-163", "include/xitren/comm/observer.hpp:169-177"]}
{"id": "C123", "title": "Fixed-size observable: registering and removing while other threads use it", "statement": "A call that is not interrupted has the effect it has in a single thread. Otherwise, in every state: two threads registering different new observers can both be told ok while only one is registered (removing the other reports not_found and notifications do not reach it); with room for one observer the second of two registrations is written behind the array; an observer that is last in the list can be called after its removal has been reported; removing the first of three or more observers during a notification can leave out the second, which is registered all the time, and call the last twice, the notification reporting ok. Every call that changes the number of observers races with every other call, and any two notifications race.", "quantifier": "every capacity, every single-threaded history before with any callbacks, all observers and values, any two threads", "why_tests_cant": "needs a thread switch between two particular memory accesses", "anchors": ["include/xitren/comm/observer.hpp:93-128", "include/xitren/comm/observer.hpp:150-163", "include/xitren/comm/observer.hpp:186-194"]}
{"id": "C124", "title": "Requests of one size: an exact pool above 16 bytes, half of the places can be lost below (finding)", "statement": "Suppose every request made so far rounds to the same footprint as n bytes (header and rounding to 8 included), and call places the number of such footprints that fit side by side in the usable area. If n is above 16, a further request succeeds exactly when fewer blocks are held than there are places, whatever was allocated and freed before and in whatever order, and the block handed out is the lowest place not held: no memory is ever lost to fragmentation. For every n the blocks sit in places, there are never more blocks than places, and a request succeeds while less than half of the places hold a block. For n up to 16 that is all that is sure: because a remainder of up to 32 bytes is handed out with a block, on every heap some history of allocations and frees of that single size ends with a refusal while only about half of the places hold a block.", "quantifier": "all placements and sizes of the heap, all histories of requests of one rounded size, frees, writes and other calls, all sizes", "why_tests_cant": "Whether a pool of equal blocks can run out early depends on the order of all allocations and frees; the loss for small sizes appears only after particular frees of neighbours.", "anchors": ["include/xitren/allocators/static_heap.hpp:allocate", "include/xitren/allocators/static_heap.hpp:callocate", "include/xitren/allocators/static_heap.hpp:deallocate"]}
{"id": "C125", "title": "lru: what Size is good for", "statement": "Give the same puts to two caches that differ only in Size (at least 1). The recency list of the larger one contains that of the smaller one, in the same order, and both tables answer alike; a put refused (cache_missed) by the larger one is refused by the smaller one too, so over any history the larger one refuses no more puts. While at most Size different keys are put altogether, no put is ever refused. After an accepted put of a key, another put of it is accepted as long as fewer than Size other keys were put in between, however often.", "quantifier": "all key and value types with a correct ==, all pairs of sizes, all histories of put", "why_tests_cant": "Caches of other eviction orders (first in first out, for instance) refuse more with a larger Size on some histories only; no finite set of histories rules that out.", "anchors": ["include/xitren/cache/lru.hpp:put"]}
{"id": "C126", "title": "Mediator: threads that only send do not disturb each other, but there is no common order", "statement": "Several threads send through one manager (as modules, or with manager::send) while no module is constructed or destroyed. Whatever the schedule: nothing undefined happens, there is no data race on the manager and its table is unchanged; each thread sees each of its messages delivered, in its own order, to exactly the registered modules that want it, in registration order, and gets its call back after a number of its own steps that depends only on its calls and the number of modules. Not promised, and false for every manager with two suitable modules: that two modules see the messages of two threads in the same order, and that a module's handler runs in one thread at a time.", "quantifier": "all module classes, hashes without collision among the types in use, values, managers reached by any single-threaded use with any handlers, numbers of threads, programs of sends per thread, schedules; the two negative parts: all pairs of messages and all modules that want both", "why_tests_cant": "A test runs a few interleavings of a few threads; it can neither show that no schedule disturbs a delivery nor force the schedule in which two modules disagree.", "anchors": ["include/xitren/comm/mediator.hpp:147-184", "include/xitren/comm/mediator.hpp:308-348"]}
{"id": "C127", "title": "Mediator: modules constructed or destroyed while other threads use it", "statement": "If the calls of the threads do not overlap (each takes its turn, as under one lock) the outcome is that of one thread making the calls in the order of the turns. Without that, for every manager and all modules of the described kind there are schedules in which: two modules constructed at once leave one of them unregistered, so that no message reaches it; a message meets a module whose own class is not constructed yet, or destroyed already (a pure virtual call, undefined); a module registered all the time is left out of a message because one before it was destroyed; the last module gets a message twice; a module that receives what it sends gets its own message, which is excluded otherwise. Constructing or destroying a module races with every other call on the count of modules.", "quantifier": "all managers reached by single-threaded use, with room left; all orders of calls; all modules, messages and pairs of threads meeting the stated conditions", "why_tests_cant": "The failures need a thread switch between two particular reads or writes; tests do not produce them, and cannot show that non-overlapping calls are always enough.", "anchors": ["include/xitren/comm/mediator.hpp:135-140", "include/xitren/comm/mediator.hpp:278-301", "include/xitren/comm/mediator.hpp:339-348"]}
{"id": "C128", "title": "Which alignments the heap and its allocator can be used for (finding)", "statement": "Objects whose type has alignment 1, 2, 4 or 8 are always aligned, whatever else is in the heap. For types with alignment 16 it depends: if every request ever made asks for a multiple of 16 bytes, every pointer is congruent modulo 16 to the first 8-aligned address of the buffer, so all objects are aligned or none is, depending on where the heap object lies; with other requests in between, some history gives a 16-byte request a misaligned pointer, wherever the buffer is (64 usable bytes suffice). For alignments of 32 and more, on every heap with room for two such objects, some history of nothing but requests for one of them gives a misaligned pointer. static_heap_allocator<T> does not refuse such types.", "quantifier": "every placement and size of the buffer, every history of calls, object sizes and counts; alignments: all powers of two (8 and below, 16, multiples of 32)", "why_tests_cant": "Whether a pointer happens to be aligned depends on the address of the buffer and on the history; a passing test says nothing about another placement or history.", "anchors": ["include/xitren/allocators/static_heap.hpp:allocate", "include/xitren/allocators/static_heap_allocator.hpp:allocate"]}
{"id": "C129", "title": "Observers that throw: the fixed-size observable ends the program (finding)", "statement": "observer::notification() and all members of the fixed-size observable are noexcept. Whatever the observers do and throw, a sequence of calls either ends the program exactly when the first callback (data() or disconnect()) is left by an exception, or no call and no callback in it is left by an exception, nothing is undefined, and everything happens as with observers that never throw; in particular the recursion flag is never left set. For observers that do not use the observable: a notification ends the program exactly when a registered observer throws for the value, after telling just the observers registered before it, and clearing (also the destructor) ends it exactly when disconnect() of a registered observer throws.", "quantifier": "every capacity, every sequence of calls, callbacks that return, throw, or use the observable and catch what they are thrown in any way", "why_tests_cant": "A test can show one exception that ends the program; it cannot show that none ever leaves a call, nor that a run without one is unaffected for every callback.", "anchors": ["include/xitren/comm/observer.hpp:notification", "include/xitren/comm/observer.hpp:clear_observers", "include/xitren/comm/observer.hpp:notify_observers"]}
{"id": "C130", "title": "Observers that throw: the dynamic observable (finding)", "statement": "Exceptions leave the dynamic observable's calls in three ways only: adding a registered observer and removing an unregistered one, both with nothing changed, and clearing, when disconnect() of an observer throws; a notification never throws (an exception of data() ends the program). After any such exception the mutex is free and the next call answers by the registered observers. A clear left by an exception has told the observers up to the one that threw and leaves all of them registered, so clearing again tells the earlier ones again, never the later ones, and never empties the list as long as that observer throws. The destructor is noexcept: it ends the program exactly when disconnect() of a registered observer throws.", "quantifier": "with and without the mutex (the exact shape of a thrown clear: with it, or observers that do not use the observable), every sequence of calls, every callback, any number of repeated clears", "why_tests_cant": "That no other exception can leave a call, that the mutex is free after every one, and that no number of clears gets past a throwing observer are statements over all callbacks and runs.", "anchors": ["include/xitren/comm/observer.hpp:add_observer", "include/xitren/comm/observer.hpp:remove_observer", "include/xitren/comm/observer.hpp:clear_observers", "include/xitren/comm/observer.hpp:notify_observers", "include/xitren/comm/observer.hpp:~observable"]}
{"id": "C131", "title": "Operands that are not ints (finding)", "statement": "The right-hand side of += and -= passes through int. For value types of up to 32 bits this is harmless: any integer operand, of any type, gives the value wrapped around as it should be. For 64-bit value types an operand of that type is applied correctly exactly when it lies in the range of int, or (unsigned) in the top 2^31 values; otherwise the value is silently off by a multiple of 2^32 (x += 3000000000 subtracts 1294967296). A double operand acts as the int left when its fraction is dropped, and is undefined behaviour when that is no int.", "quantifier": "every integer value type, every integer operand and every double, every reachable value", "why_tests_cant": "Operands of the usual size behave; that the narrow types are right for all operands and which operands of the wide types are wrong is a statement over 2^64 operands.", "anchors": ["include/xitren/comm/values/observable.hpp:operator+=", "include/xitren/comm/values/observable.hpp:operator-="]}
{"id": "C132", "title": "Floating-point value observables", "statement": "For float and double: =, +=, -= and ++x publish and return bit for bit the new value(), and no unregistered observed changes. Values, operands and results that are integers of magnitude up to 2^24 (float) or 2^53 (double) are exact; then --x publishes the value plus 1 and x++, x-- the old value, as for integers. A counter incremented from 0 is the number of increments until it reaches 2^24 or 2^53 and stays there for ever. Operators applied by several threads add up exactly in every order as long as the magnitudes together stay within that range; beyond it the outcome depends on the order. x += d with |d| < 1 adds nothing (it only turns -0 into +0). After NaN only an assignment changes the value.", "quantifier": "both formats, every value including NaN, infinities and signed zeros, every sequence of operators, any number of threads and every interleaving", "why_tests_cant": "The counter stops after 2^53 increments, which no test reaches, and exactness is claimed for all values and interleavings.", "anchors": ["include/xitren/comm/values/observable.hpp:operator++", "include/xitren/comm/values/observable.hpp:operator--", "include/xitren/comm/values/observable.hpp:operator+=", "include/xitren/comm/values/observable.hpp:operator-=", "include/xitren/comm/values/observable.hpp:operator="]}
{"id": "C133", "title": "Vectors in a static heap behave as vectors, and running out of memory costs them nothing", "statement": "Take any number of std::vector<T, static_heap_allocator<T, Size>> of a trivially copyable T in one heap, and any other users of that heap. Whatever they do in whatever order (construct, destroy, push_back, pop_back, write an element, reserve, clear, assign one vector to another; other users allocate, free and write their own blocks), nothing is undefined and every vector contains exactly the elements a plain list would after the commands that did not throw; the bytes of the other users are never touched. std::bad_alloc is thrown exactly when a command needs a new block (a push_back on a full vector asks for twice its elements) and no stretch between the blocks in use is long enough for it; std::length_error exactly when max_size would be exceeded; a command that throws changes no vector, no byte and no counter of the heap. A vector's elements stay where they are while commands on it need no new block, whatever other vectors do; after reserve(n) has returned, push_backs up to n elements never throw and move nothing. Destroying the vectors at any moment gives back every byte they took.", "quantifier": "all placements and sizes of the heap, all element sizes, all numbers of vectors, all finite interleavings of vector commands and other users' calls, all element values", "why_tests_cant": "The suite pushes a handful of values into one vector. That two growing vectors and a third user never overlap, that a failed growth leaves everything as it was and that nothing leaks depends on every order of growth, assignment and release.", "anchors": ["include/xitren/allocators/static_heap_allocator.hpp:allocate", "include/xitren/allocators/static_heap_allocator.hpp:deallocate", "include/xitren/allocators/static_heap.hpp:allocate", "include/xitren/allocators/static_heap.hpp:deallocate"]}
{"id": "C134", "title": "A value observable shared by threads, with the observeds' functions", "statement": "Any number of threads use operators and value() of one values::observable and value() of its registered observeds, in any interleaving. Nothing is undefined as long as no operator overflows. Each thread performs each operator in full: the atomic update, then for every registered observed in order of registration its store and then its on_update function with the published value, then the return. All updates and reads have one common order in which each finds the arithmetic result of the updates before it. When all are done, each observed's function was called exactly once with each published value. If all updates are ++x, the published and returned values are v+1, v+2, ... with no gap and no repetition modulo the width, and before wrapping no value() goes back. Findings: the functions need not be called in the order of the updates (v+2 first, v+1 last, after which the observed holds v+1 for good), and two threads can be in the same observed's function at once, where its value() is not the argument.", "quantifier": "every number of threads, every program of operators and reads, every list of observeds with and without functions, every integer type, every interleaving", "why_tests_cant": "Interleavings cannot be enumerated; a stress test seldom meets the bad ones.", "anchors": ["include/xitren/comm/values/observable.hpp:notify_observers", "include/xitren/comm/values/observable.hpp:operator++", "include/xitren/comm/values/observed.hpp:data", "include/xitren/comm/values/observed.hpp:value"]}
{"id": "C135", "title": "One writing thread, any number of readers", "statement": "If a single thread uses =, +=, -= and ++x while any number of threads read, then while an observed's function runs its argument equals both the observed's and the observable's value(); when an operator has returned every registered observed holds the value, whatever it held before; at any moment an observed that started equal holds the value or the one before the last update; and if the updates are ++x without wrapping, no observed's value() ever goes back in any thread. With two counting threads it can go back.", "quantifier": "every program of the writer, every number and program of readers, every list of observeds, every integer type, every interleaving", "why_tests_cant": "Readers can come between any two steps of the writer.", "anchors": ["include/xitren/comm/values/observable.hpp:notify_observers", "include/xitren/comm/values/observed.hpp:data", "include/xitren/comm/values/observed.hpp:value"]}
{"id": "C136", "title": "Lists in a static heap behave as sequences, elements never move, and running out of memory costs them nothing", "statement": "Take any number of std::list<T, static_heap_allocator<T, Size>> of a trivially copyable T in one heap, and any other users of that heap. Whatever they do in whatever order (construct, destroy, insert before any iterator, push and pop at both ends, erase, assign through an iterator, clear; other users allocate, free and write their own blocks), nothing is undefined, and a loop over each list finds exactly the elements a plain sequence would contain, each in the place the heap gave it, and ends at end(); backwards it finds the same in reverse; size() is their number; erase returns the iterator after the erased element. No two elements share memory with each other or with another user's block. An element keeps its place and value until it is itself removed or assigned to, whatever happens to its list, other lists and other users. The bytes of other users are never touched. std::bad_alloc is thrown exactly when an insertion or push finds no stretch between the blocks in use long enough for one node; the command that throws changes no list, no byte and no counter of the heap. Destroying the lists at any moment gives back every byte they took.", "quantifier": "all placements and sizes of the heap, all places of the list objects, all element sizes, all numbers of lists, all finite interleavings of list commands and other users' calls, all element values", "why_tests_cant": "The suite fills one list of strings and reads it. The links between nodes live in the heap's own bytes, next to its headers, and are rewritten with every insertion and removal; that they always form the ring the list needs depends on every order of operations of all users.", "anchors": ["include/xitren/allocators/static_heap_allocator.hpp:allocate", "include/xitren/allocators/static_heap_allocator.hpp:deallocate", "include/xitren/allocators/static_heap_allocator.hpp:rebind", "include/xitren/allocators/static_heap.hpp:allocate", "include/xitren/allocators/static_heap.hpp:deallocate"]}
{"id": "C137", "title": "A parser used again keeps what earlier calls set", "statement": "One parser object can parse any number of argument vectors: nothing is reset between the calls, so after the last call an option holds what its last occurrence in all the vectors gave, and a flag is up if any of them named it. Parsing the same vector again changes nothing. Two vectors parsed one after the other have the effect of the one long vector, unless the first ends with the name of an option that still waits for its value.", "quantifier": "every sequence of argument vectors of up to INT_MAX arguments, every option table, every starting values", "why_tests_cant": "All sequences of vectors.", "anchors": ["include/xitren/func/argv_parser.hpp:parse", "include/xitren/func/argv_parser.hpp:register_callback"]}
{"id": "C138", "title": "A heap shared by threads hands out the same memory twice (finding)", "statement": "v_task_suspend_all and x_task_resume_all are empty, so nothing keeps calls of different threads apart. A call that is not interrupted has its single-threaded effect. Otherwise, in every reachable state: if two threads call allocate and either call alone would return p, there is an interleaving in which both return p; free_heap_size() falls for both and wraps to nearly 2^64 if it has to. When nothing is free and two threads free two different blocks, there is an interleaving after which free_heap_size() counts both blocks but no request that does not fit the first one can be served, however large the second. Every call that changes free_heap_size() races with every allocate.", "quantifier": "every placement and size of the heap, every reachable state, all requested sizes, any threads with any further calls", "why_tests_cant": "needs a thread switch between two particular memory accesses", "anchors": ["include/xitren/allocators/static_heap.hpp:70-76", "include/xitren/allocators/static_heap.hpp:allocate", "include/xitren/allocators/static_heap.hpp:deallocate", "include/xitren/allocators/static_heap.hpp:prv_insert_block_into_free_list"]}
{"id": "C139", "title": "Value observables whose observeds' functions throw (finding)", "statement": "All members of values::observable that run functions, and observed::notification(), are noexcept. The program is ended exactly when the function of an observed, or its disconnect(), throws: until then everything is as if something else were written in place of the throw, whatever it is, and at that point it would have been done next; no exception ever leaves an operator or another call, so nobody can catch it. For functions that do not use the observables: x = v, ++x and the other operators end the program exactly when the function of a listed observed throws for the published value - the observable has changed by then, the observeds listed before it have been told, and it holds the value itself, those behind have not been told; the same for notify_observers; clearing and the destructor end it exactly when disconnect() of a listed observed throws.", "quantifier": "any number of observables of both kinds (fixed size and without limit), of any integer types, constructed and destroyed at any time, every sequence of calls, functions that return, throw, or make any calls in between, nested to any depth", "why_tests_cant": "A test can show one exception that ends the program; it cannot show that none ever leaves a call, nor that a run in which nothing is thrown is unaffected, for every function.", "anchors": ["include/xitren/comm/values/observable.hpp:notify_observers", "include/xitren/comm/values/observable.hpp:clear_observers", "include/xitren/comm/values/observable.hpp:operator++", "include/xitren/comm/values/observed.hpp:notification", "include/xitren/comm/values/observed.hpp:data"]}
{"id": "C140", "title": "Value observable: observeds and functions changed while other threads use it", "statement": "Only the values are atomic. A call that is not interrupted has the effect it has in a single thread. Otherwise, in every state: two threads registering different new observeds can both be told ok while one is not registered (removing it reports not_found, and it keeps its old value through later updates); with room for one the second of two registrations is written behind the array; an observed that is last in the list can store the value, and its function be called, after its removal has been reported; every observed can be told the value after it was disconnected and clear_observers() has returned; removing the first of three or more observeds during an update can leave the second, registered all the time, with its old value although the operator has returned, and tell the last twice; on_update(nullptr) during an update can end the program, and on_update while the function runs destroys the running function. Every call that changes the number of observeds races with every call of the observable, and on_update of a registered observed with every update and every other on_update of it.", "quantifier": "every integer type, every capacity, every single-threaded history before with any callbacks, all observeds, functions, values and operators that do not overflow, any two threads", "why_tests_cant": "Needs a thread switch between two particular memory accesses; the values being atomic suggests that the class is safe.", "anchors": ["include/xitren/comm/values/observable.hpp:173-184", "include/xitren/comm/values/observable.hpp:194-239", "include/xitren/comm/values/observed.hpp:35-39", "include/xitren/comm/values/observed.hpp:58-81"]}
{"id": "C141", "title": "Dynamic value observable used by several threads", "statement": "The observable without a fixed capacity keeps its observeds in a vector that nothing protects. Calls that are not interrupted have the effect they have in a single thread, however much room the vector has. Otherwise: when the vector has room, two threads registering different new observeds can both be told ok while one of them is not registered, and removing it reports not_found; when it is full, a registration between another call's reading of begin() and of end() leaves that call with pointers into two arrays (also the very first registration; only removing from an observable without observeds is safe), and when it is full and not empty a registration during an update makes the update read the freed array, and two registrations at once free the old array twice; every observed can be told the value after it was disconnected and clear_observers() has returned. A registration of a new observed, and clear_observers() of an observable that has observeds, race with every call.", "quantifier": "every integer type, every vector content with any amount of room, all observeds, values and operators that do not overflow, any two threads", "why_tests_cant": "Needs a thread switch between two particular memory accesses, and for the worst outcomes a vector that is exactly full; reading a freed array usually finds the old contents.", "anchors": ["include/xitren/comm/values/observable.hpp:282-392", "include/xitren/comm/values/observable.hpp:419-462", "include/xitren/comm/values/observable.hpp:472-499"]}
{"id": "C142", "title": "Pipelines whose function throws (finding)", "statement": "Nothing in a stage's or pool's worker threads catches, so an exception that leaves the function ends the program. Until then everything is as if the function did not throw, for every interleaving, and nothing happens afterwards: in a program that goes on, every call of the function that was left was left normally. When a stage that was given at most BufferSize items is ended in this way, the items before the one that threw had been processed in order, and those behind it are lost. If the function always throws for an item, then once that item was pushed the stage's destructor never returns, and when the destructor has started the program is over after the worker has had its steps.", "quantifier": "every BufferSize, any number of queues, workers and producers, all items, every interleaving, functions that throw depending on anything that happened before", "why_tests_cant": "A throwing function ends the test program itself; that nothing else is disturbed before, and which items are lost, depends on the interleaving.", "anchors": ["include/xitren/comm/pipeline_stage.hpp:102-137", "include/xitren/comm/pipeline_stage_pool.hpp:56-99"]}
{"id": "C143", "title": "Timers whose function throws (finding)", "statement": "Nothing in interval_event's thread catches, so an exception that leaves the timer's function ends the program. Until then everything is as if the function did not throw, for every interleaving of the timer's thread with threads that call stop(), the destructor or period(), and nothing happens afterwards: in a program that goes on, every call of the function that was left was left normally. When the program is ended in this way no stop() and no destructor of the timer has returned; and once a stop() or the destructor has returned, the timer can no longer end the program. A function that always throws is called once at most: while the program still goes on after that call the function has not been left, and no stop() and no destructor has returned.", "quantifier": "every period, any number of threads, all clock readings, every interleaving, functions that call stop() or not and that throw depending on anything that happened before", "why_tests_cant": "A throwing function ends the test program itself; that a stop() that has returned protects from it, for every interleaving, cannot be observed by running some.", "anchors": ["include/xitren/func/interval_event.hpp:41-79"]}
