{"id": "C01", "title": "Merging path constraints is exactly disjunction", "statement": "When several symbolic states are merged, an assignment of the program's variables satisfies the merged path constraints (for some value of the fresh merge selector) if and only if it satisfies the path constraints of at least one of the merged states; with the selector fixed to i it satisfies exactly state i's.", "quantifier": "all lists of states, all constraint lists sharing any common part, all assignments", "why_tests_cant": "Infinitely many constraint sets and assignments; a test compares a few models.", "anchors": ["tool/kalm/solver.py: KalmSolver.merge", "tool/kalm/merging.py: merge_states"]}
{"id": "C02", "title": "Merge selector values are distinct and always representable", "statement": "The selector used for a merge of n states is wide enough that the n selector conditions are pairwise incompatible and each of them is achievable, for every n >= 1.", "quantifier": "all n", "why_tests_cant": "Off-by-one in the width only shows at particular n (powers of two).", "anchors": ["tool/kalm/merging.py: merge_states"]}
{"id": "C03", "title": "Definite answers are right", "statement": "If the engine reports that a condition is definitely true (definitely false, constantly v), then every assignment allowed by the current path constraints makes it true (false, equal to v); and when it reports that a condition can be true (can be false) there is an allowed assignment doing so.", "quantifier": "all path constraints, conditions, and assignments", "why_tests_cant": "Quantifies over all assignments of symbolic variables.", "anchors": ["tool/kalm/utils.py: can_be_true, can_be_false, definitely_true, definitely_false, get_if_constant"]}
{"id": "C04", "title": "Guarded forks lose no execution and mix none", "statement": "When an external model forks on a guard, every assignment allowed before the fork is allowed in exactly the branch (true/false) that the guard selects under it, each branch's callback is run in a state where the guard has the right value, and no branch is created that no assignment reaches.", "quantifier": "all path constraints, guards, assignments", "why_tests_cant": "Every assignment must fall in exactly one branch.", "anchors": ["tool/kalm/utils.py: fork_guarded, fork_guarded_has"]}
{"id": "C05", "title": "Exact-match lookup returns a semantically equal candidate", "statement": "If looking up an expression among candidates under an assumption returns one, then in every assignment allowed by the path constraints and satisfying the assumption the expression equals the returned candidate's key; and a symbolic expression that is definitely equal to some candidate is always matched.", "quantifier": "all constraints, assumptions, candidate lists", "why_tests_cant": "Universally quantified over assignments.", "anchors": ["tool/kalm/utils.py: get_exact_match"]}
{"id": "C06", "title": "Structural comparison is equality and structural diff is a partition", "statement": "Structural equality of nested values holds exactly when they are built identically; structural diff of two duplicate-free lists puts each left item in exactly one of only-left/both and returns as only-right exactly the right items without a left match.", "quantifier": "all nested values, all lists", "why_tests_cant": "Arbitrary nesting and lengths.", "anchors": ["tool/kalm/utils.py: structural_eq, structural_diff"]}
{"id": "C07", "title": "Address decomposition into terms and multipliers is exact", "statement": "Decomposing an address expression into terms with multipliers yields terms whose weighted sum, computed modulo 2^width, equals the original expression under every assignment, for shifts, concatenations with zeroes, sums, differences, products and conditionals, also after grouping zero-extended truncations.", "quantifier": "all expressions and assignments", "why_tests_cant": "Unbounded expression trees.", "anchors": ["tool/kalm/utils.py: _as_mult_add, _as_mult_add_outer"]}
{"id": "C08", "title": "Simplified modulo equals modulo", "statement": "The simplified form of a modulo b equals the real unsigned remainder under every assignment.", "quantifier": "all expressions a, divisors b, assignments", "why_tests_cant": "Wrap-around only appears for rare assignments.", "anchors": ["tool/kalm/utils.py: _modulo_simplify"]}
{"id": "C09", "title": "Simplified division equals division", "statement": "The simplified form of a divided by b equals the real unsigned quotient under every assignment.", "quantifier": "all expressions a, divisors b, assignments", "why_tests_cant": "Wrong only for particular multiplier/size ratios and values.", "anchors": ["tool/kalm/utils.py: _div_simplify"]}
{"id": "C10", "title": "Resolved pointers denote the accessed bytes", "statement": "When an address is resolved to (base, index, bit offset) for elements of a given byte size, the address equals base + index*size + offset/8 modulo 2^width and the offset lies inside the element, under every assignment allowed by the path constraints, for addresses built from a known base, a constant inside an element and an index times the element size.", "quantifier": "all bases, index expressions, sizes, offsets, assignments", "why_tests_cant": "All addresses and assignments.", "anchors": ["tool/kalm/utils.py: base_index_offset, _modulo_simplify, _div_simplify"]}
{"id": "C11", "title": "Expression simplification preserves meaning", "statement": "Simplifying an expression under a condition yields an expression with the same value in every assignment that satisfies the path constraints and the condition.", "quantifier": "all expressions (sums and nested conditionals), conditions, assignments", "why_tests_cant": "Arbitrary nesting of conditionals.", "anchors": ["tool/kalm/utils.py: simplify"]}
{"id": "C12", "title": "Triage before a merge is a partition that respects the mergeability test", "statement": "Grouping states for merging puts every state in exactly one group, keeps the first state first, and only puts a state in a group if it was accepted as mergeable with that group's representative.", "quantifier": "all state lists and mergeability relations", "why_tests_cant": "All lists.", "anchors": ["tool/kalm/merging.py: triage_for_merge", "tool/klint/ghostmaps.py: GhostMapsPlugin.merge_triage"]}
{"id": "C13", "title": "Exploration never loses a state", "statement": "Through any sequence of exploration steps with merging, every explored execution (assignment plus path) of every state that was active is still covered by an active, deferred or finished state (or exploration aborts with an error): merging and deferral drop no execution.", "quantifier": "all step sequences, all merge decisions", "why_tests_cant": "Unbounded schedules.", "anchors": ["tool/kalm/merging.py: MergingExplorationTechnique.step, triage_for_merge, merge_states", "tool/kalm/executor.py: run_state"]}
{"id": "C14", "title": "Merged memory and register values are per-state faithful", "statement": "The value stored for a location in a merged state evaluates, under the selector of state i, to the value that location had in state i.", "quantifier": "all value lists, widths, assignments", "why_tests_cant": "All numbers of merged states.", "anchors": ["tool/kalm/memory/memory.py: _merge_values", "tool/kalm/memory/registers.py: _merge_values"]}
{"id": "C15", "title": "The recorded external-call trace survives merging", "statement": "After merging states, keeping only the recorded external calls whose condition holds under state i's selector gives exactly state i's recorded sequence (with its own conditions).", "quantifier": "all recorded sequences and number of states", "why_tests_cant": "All sequences.", "anchors": ["tool/kalm/plugins/path.py: merge, begin_record, end_record"]}
{"id": "C16", "title": "Ghost-map reads over-approximate every real map history", "statement": "For every program history of ghost-map creation, reads, writes and removals on a map, and every concrete execution of that history on real finite maps consistent with the inputs, there is an assignment that satisfies all constraints the engine added and under which each read's returned (value, present) and the map's length equal the concrete ones. Hence whatever the engine reports as definitely true after the history is true in every concrete execution.", "quantifier": "all histories, all key/value expressions (aliasing or not), all concrete initial maps and inputs", "why_tests_cant": "Unbounded histories and symbolic aliasing.", "anchors": ["tool/klint/ghostmaps.py: Map.new, Map.new_array, Map.get, Map.set, Map.remove, with_item_layer, known_items, is_not_overfull"]}
{"id": "C17", "title": "Read your writes", "statement": "Reading a key that equals the key just written yields exactly the value written and presence true, under every assignment consistent with the path constraints; reading it after a removal yields presence false.", "quantifier": "all maps in any reachable configuration, keys, values, assignments", "why_tests_cant": "All assignments.", "anchors": ["tool/klint/ghostmaps.py: Map.get, Map.set, Map.remove"]}
{"id": "C18", "title": "Writes and removals do not disturb other keys", "statement": "After writing or removing a key, reading a different, previously read key yields what the earlier read yielded, under every assignment where the two keys differ.", "quantifier": "all reachable maps, keys, values, assignments", "why_tests_cant": "All assignments.", "anchors": ["tool/klint/ghostmaps.py: Map.get, Map.set, Map.remove, known_items"]}
{"id": "C19", "title": "Map length tracks the number of present keys", "statement": "Writing changes the length by one exactly if the key was absent before, removing decreases it by one exactly if it was present, and otherwise it is unchanged, under every consistent assignment.", "quantifier": "all reachable maps, keys, assignments", "why_tests_cant": "All assignments.", "anchors": ["tool/klint/ghostmaps.py: Map.set, Map.remove, Map.length"]}
{"id": "C20", "title": "Two reads with equal keys agree", "statement": "Any two reads of one map with no write in between return equal values and presence in every consistent assignment in which their keys are equal.", "quantifier": "all reachable maps, key pairs, assignments", "why_tests_cant": "All alias patterns.", "anchors": ["tool/klint/ghostmaps.py: Map.get"]}
{"id": "C21", "title": "A true forall really covers every item", "statement": "If forall over a map returned a result that is true in an assignment, then the predicate holds on every item that is read as present from that map version, before or afterwards, in that assignment.", "quantifier": "all reachable maps, predicates without nested map lookups, later reads, assignments", "why_tests_cant": "Quantifies over all later reads.", "anchors": ["tool/klint/ghostmaps.py: Map.forall, add_invariant_conjunction, Map.get"]}
{"id": "C22", "title": "Independent foralls do not constrain each other", "statement": "If two foralls over the same map are both false in a concrete execution, the engine still has an assignment describing that execution.", "quantifier": "all maps and predicate pairs", "why_tests_cant": "Requires a quantification over executions.", "anchors": ["tool/klint/ghostmaps.py: Map.forall, _unknown_item"]}
{"id": "C23", "title": "Reading an old version of a map is unaffected by later writes", "statement": "A lookup frozen at an earlier version of a map returns what the map contained at that version, whatever was written later.", "quantifier": "all maps, versions, later histories", "why_tests_cant": "All histories.", "anchors": ["tool/klint/ghostmaps.py: Map.get (version), freeze_map_ast_versions, with_item_layer, add_item"]}
{"id": "C24", "title": "Frozen presence tests use the frozen version", "statement": "A presence test (without value) stored in an invariant when the map was at version n is evaluated at version n.", "quantifier": "all versions and histories", "why_tests_cant": "All histories.", "anchors": ["tool/klint/ghostmaps.py: eval_map_ast.has_handler, freeze_map_ast_versions"]}
{"id": "C25", "title": "Testing that a map contains a given pair does not rule out executions", "statement": "Evaluating 'map has key k with value v' adds no constraint that excludes a concrete execution in which the map has another value for k.", "quantifier": "all maps, keys, values, executions", "why_tests_cant": "Quantifies over executions.", "anchors": ["tool/klint/ghostmaps.py: Map.get (conditioned_value), eval_map_ast"]}
{"id": "C26", "title": "Merged ghost maps describe each merged state's map", "statement": "After merging states, a map evaluates under state i's selector to the map that state i had.", "quantifier": "all mergeable maps, selectors, assignments", "why_tests_cant": "All map pairs.", "anchors": ["tool/klint/ghostmaps.py: Map.merge, Map.can_merge, GhostMapsPlugin.merge"]}
{"id": "C27", "title": "Layer flattening does not change the map", "statement": "Writing several constant, distinct keys in a row gives the same map contents, for every later read, as writing them one layer at a time.", "quantifier": "all histories of constant-key writes and later reads", "why_tests_cant": "All histories and later keys.", "anchors": ["tool/klint/ghostmaps.py: with_item_layer, known_items (_known_items_cache)"]}
{"id": "C28", "title": "Arrays contain exactly the indices below their length", "statement": "Reading index i of an array map created with length n reports presence exactly when i < n (unsigned) in every consistent assignment, for every read, as long as only indices below n are written and nothing is removed.", "quantifier": "all lengths, indices, read sequences, assignments", "why_tests_cant": "All indices.", "anchors": ["tool/klint/ghostmaps.py: Map.new_array, Map.get"]}
{"id": "C29", "title": "Empty maps contain nothing", "statement": "Reading any key of a freshly created map reports absence and forall over it is true; after a write only the written key can be present.", "quantifier": "all keys, predicates, assignments", "why_tests_cant": "All keys.", "anchors": ["tool/klint/ghostmaps.py: Map.new, is_definitely_empty, Map.forall"]}
{"id": "C30", "title": "A map never reports more distinct present keys than its length", "statement": "In every consistent assignment the number of distinct keys read as present from an array or map version is at most the map's length at that version.", "quantifier": "all read sequences and assignments", "why_tests_cant": "Counting over arbitrary many reads.", "anchors": ["tool/klint/ghostmaps.py: is_not_overfull, Map.get"]}
{"id": "C31", "title": "Reading back what was written to the heap", "statement": "Storing a value at an offset inside an element and loading the same range returns the stored value, in every consistent assignment (little-endian accesses).", "quantifier": "all element sizes, offsets, widths, values", "why_tests_cant": "All offsets and widths.", "anchors": ["tool/klint/heap.py: _read, _write"]}
{"id": "C32", "title": "Heap writes leave neighbouring bytes and elements alone", "statement": "A store inside an element changes no bit outside the stored range of that element and no other element.", "quantifier": "all sizes, offsets, widths, values, bit positions, indices", "why_tests_cant": "All bit positions.", "anchors": ["tool/klint/heap.py: _write"]}
{"id": "C33", "title": "Byte-swapped heap accesses round-trip", "statement": "Storing and then loading the same range of an element with big-endian (reversed) accesses returns the stored value.", "quantifier": "all sizes, offsets, widths, values", "why_tests_cant": "All widths and offsets.", "anchors": ["tool/klint/heap.py: _read, _write"]}
{"id": "C34", "title": "Out-of-bounds heap accesses are rejected", "statement": "A load or store whose element index may be at or beyond the allocation's element count, or whose byte range exceeds the element, never succeeds silently.", "quantifier": "all allocations (ephemeral or not), indices, assignments", "why_tests_cant": "All assignments of the index.", "anchors": ["tool/klint/heap.py: _read, _write, allocate"]}
{"id": "C35", "title": "Ownership fractions stay within 0..100", "statement": "Through any sequence of takes and gives that the engine accepts, the ownership fraction of every heap element stays between 0 and 100, and a take never succeeds with less ownership than requested.", "quantifier": "all sequences of takes and gives", "why_tests_cant": "Unbounded sequences.", "anchors": ["tool/klint/heap.py: take, give"]}
{"id": "C36", "title": "Map insertion and removal conserve key ownership", "statement": "A successful map_set takes 25% ownership of the key's memory and the matching map_remove returns exactly that, so that inserting then removing a key restores the caller's ownership, and a key in the map cannot be written by the program.", "quantifier": "all heaps, keys, fractions", "why_tests_cant": "All fractions and interleavings.", "anchors": ["tool/klint/externals/structs/map.py: map_set.run, map_remove.run", "tool/klint/heap.py: take, give, _write"]}
{"id": "C37", "title": "Index pool borrow returns a free or expired index, or fails only when every index is young", "statement": "index_pool_borrow succeeds exactly unless all indices are in use and young; the returned index is in range, was either never in use/returned (out_used false) or expired (out_used true), is stamped with the current time, and every other index keeps its state.", "quantifier": "all pool sizes, timestamp arrays, scan positions, times", "why_tests_cant": "All array contents and positions.", "anchors": ["env/src/structs/index_pool.c: index_pool_borrow", "env/include/structs/index_pool.h: index_pool_borrow contract"]}
{"id": "C38", "title": "Index pool refresh, used and return follow their contracts through any history", "statement": "Through any sequence of borrow/refresh/used/return calls the pool's observable state is the finite map of its contract: used reports exactly the young members, refresh restamps, return removes.", "quantifier": "all call sequences and times", "why_tests_cant": "Unbounded sequences.", "anchors": ["env/src/structs/index_pool.c: index_pool_alloc, index_pool_borrow, index_pool_refresh, index_pool_used, index_pool_return"]}
{"id": "C39", "title": "The hash map is a finite map", "statement": "Through any sequence of map_set (of absent keys, below capacity), map_get and map_remove (of present keys) the hash map answers every map_get exactly as the finite map that applied the same updates, for every hash function, including collisions and wrapped probe sequences.", "quantifier": "all operation sequences, keys, hash functions, capacities", "why_tests_cant": "Collisions, chains and wrap-around depend on hash values; unbounded histories.", "anchors": ["env/src/structs/map.c: map_alloc, map_get, map_set, map_remove, loop, get_real_capacity"]}
{"id": "C40", "title": "The hash map always finds room below its declared capacity", "statement": "map_set called with fewer than capacity keys always finds an empty slot and never loops past the table.", "quantifier": "all reachable tables, capacities, hashes", "why_tests_cant": "All reachable tables.", "anchors": ["env/src/structs/map.c: map_set, get_real_capacity"]}
{"id": "C41", "title": "Table capacity is the least power of two not below the request", "statement": "The hash map's real capacity is a power of two, at least the requested capacity and, beyond one, less than twice it, whenever the request is within the allowed range.", "quantifier": "all capacities", "why_tests_cant": "2^58 values.", "anchors": ["env/src/structs/map.c: get_real_capacity"]}
{"id": "C42", "title": "Consistent-hashing rows are permutations of the backends", "statement": "Every row of the consistent-hashing table built at allocation enumerates every backend exactly once.", "quantifier": "all table heights and backend counts allowed by the precondition", "why_tests_cant": "All heights and counts.", "anchors": ["env/src/structs/cht.c: cht_alloc"]}
{"id": "C43", "title": "Consistent-hashing lookup finds an available backend if there is one", "statement": "The lookup returns the first backend in the row's preference order that is currently in use in the pool, and reports failure exactly when none of the backends is in use.", "quantifier": "all tables, pools, hashes, times", "why_tests_cant": "All pools.", "anchors": ["env/src/structs/cht.c: cht_find_preferred_available_backend"]}
{"id": "C44", "title": "The memory allocator hands out disjoint, aligned, in-bounds, zeroed blocks", "statement": "Any sequence of allocations that succeed returns blocks that are pairwise disjoint, inside the arena, zero-filled, non-null and aligned as documented; an allocation that cannot fit aborts.", "quantifier": "all allocation sequences", "why_tests_cant": "Unbounded sequences and arithmetic wrap-around.", "anchors": ["env/src/os/memory_alloc.c: os_memory_alloc"]}
{"id": "C45", "title": "Configuration reads respect the declared range", "statement": "A configuration getter returns only values between its declared bounds that were actually configured under that name, and otherwise reports failure; a configured value in range is returned.", "quantifier": "all configurations, names, bounds", "why_tests_cant": "All values.", "anchors": ["env/include/os/config.h: os_config_get, os_config_get_u64, os_config_get_u32, os_config_get_u16, os_config_get_size, os_config_get_device, os_config_get_time", "env/src/os/config.c: os_config_try_get"]}
{"id": "C46", "title": "Allocation preconditions reject overflowing sizes", "statement": "The symbolic contracts of map_alloc and index_pool_alloc reject a capacity whose total size does not fit in size_t, as the contracts in the headers require.", "quantifier": "all capacities", "why_tests_cant": "The violating capacities are astronomically rare.", "anchors": ["tool/klint/externals/structs/map.py: map_alloc.run", "tool/klint/externals/structs/index_pool.py: index_pool_alloc.run"]}
{"id": "C47", "title": "The memory allocation precondition is exact", "statement": "The symbolic contract of os_memory_alloc accepts a request exactly when the count is one or count times size does not exceed the largest size_t.", "quantifier": "all counts and sizes", "why_tests_cant": "2^128 inputs.", "anchors": ["tool/klint/externals/os/memory.py: os_memory_alloc.run"]}
{"id": "C48", "title": "The index-pool contract admits every behaviour of the C implementation", "statement": "For every pool state reachable in the C code and every call, the C result satisfies the constraint that the symbolic contract adds in the branch it takes, so symbolic execution explores every real outcome.", "quantifier": "all pool states, times, indices", "why_tests_cant": "All pool contents.", "anchors": ["tool/klint/externals/structs/index_pool.py: index_pool_borrow.run, index_pool_used.run, index_pool_refresh.run, index_pool_return.run", "env/src/structs/index_pool.c"]}
{"id": "C49", "title": "The longest-prefix-match contract admits every real lookup result", "statement": "For every routing table and key, the outcome of a longest-prefix-match lookup satisfies the constraints the symbolic contract adds.", "quantifier": "all tables and keys", "why_tests_cant": "All tables.", "anchors": ["tool/klint/externals/structs/lpm.py: LpmSearch.run"]}
{"id": "C50", "title": "The prefix-match predicate is bitwise prefix equality", "statement": "The contract's match test between a table entry and a key holds exactly when the entry's first 'width' bits equal the key's.", "quantifier": "all keys, entries, widths", "why_tests_cant": "All widths and key values.", "anchors": ["tool/klint/externals/structs/lpm.py: LpmSearch.run.matches"]}
{"id": "C51", "title": "The consistent-hashing contract admits every real lookup result", "statement": "The C lookup's outcome always satisfies the constraints added by the symbolic contract branch it takes.", "quantifier": "all tables and pools", "why_tests_cant": "All pools.", "anchors": ["tool/klint/externals/structs/cht.py: ChtFindPreferredAvailableBackend.run"]}
{"id": "C52", "title": "A successful verification covers every feasible path of the specification", "statement": "If symbolic execution of a specification against a state succeeds, then for every assignment consistent with the state's path constraints the specification, run concretely under that assignment, completes without failing an assertion (specifications without choices).", "quantifier": "all specifications (as decision trees), states, assignments", "why_tests_cant": "All assignments and paths.", "anchors": ["tool/klint/verif/symbex.py: symbex, _symbex, _symbex_one", "tool/klint/verif/value_proxy.py: ValueProxy.__bool__"]}
{"id": "C53", "title": "The explored specification paths are exactly the feasible ones, each once", "statement": "The path conditions returned by symbolic execution of a specification are pairwise incompatible, each satisfiable, and together cover every allowed assignment.", "quantifier": "all specifications and assignments", "why_tests_cant": "All specifications.", "anchors": ["tool/klint/verif/symbex.py: _symbex, _symbex_one", "tool/klint/verif/value_proxy.py: ValueProxy.__bool__"]}
{"id": "C54", "title": "Choices are explored until one works", "statement": "If for some combination of choices (of existential names in the specification) every feasible path passes, verification does not fail.", "quantifier": "all specifications with choices", "why_tests_cant": "All combinations.", "anchors": ["tool/klint/verif/symbex.py: _symbex", "tool/klint/verif/spec_prefix.py: choose"]}
{"id": "C55", "title": "A success with choices is backed by one consistent choice vector", "statement": "If verification succeeds then there is a single assignment of choices under which every feasible path passes.", "quantifier": "all specifications with choices", "why_tests_cant": "All specifications.", "anchors": ["tool/klint/verif/symbex.py: _symbex, _symbex_one"]}
{"id": "C56", "title": "Specification arithmetic means what the specification author wrote", "statement": "A binary operation between two specification values of known widths (up to 64 bits) evaluates to the mathematical operation on their unsigned values, after extending the narrower operand.", "quantifier": "all operators, widths, values", "why_tests_cant": "All widths and values.", "anchors": ["tool/klint/verif/value_proxy.py: ValueProxy._op"]}
{"id": "C57", "title": "Structured specification values round-trip", "statement": "Packing a specification structure into bits and unpacking it with the same type returns every field unchanged, and sizes agree.", "quantifier": "all nested structure types and values", "why_tests_cant": "All nested types.", "anchors": ["tool/klint/verif/spec_prefix.py: type_size, type_wrap, type_unwrap"]}
{"id": "C58", "title": "Packet header fields read the right bits", "statement": "Each header field exposed to specifications reads the bits that the protocol's wire format assigns to it.", "quantifier": "all packets", "why_tests_cant": "All packet contents.", "anchors": ["tool/klint/verif/spec_prefix.py: _SpecPacketHeader, _SpecPacket", "env/include/net/packet.h"]}
{"id": "C59", "title": "Existence in specifications is existence", "statement": "A specification's 'exists' assertion passes only if in every allowed execution some value satisfies the predicate.", "quantifier": "all predicates, states", "why_tests_cant": "All executions.", "anchors": ["tool/klint/verif/spec_prefix.py: exists"]}
{"id": "C60", "title": "Expiring sets in specifications behave as timed sets", "statement": "The specification helper for expiring sets reports membership exactly for unexpired elements and full exactly when the number of unexpired elements reaches capacity, through any history.", "quantifier": "all histories of additions/refreshes and times", "why_tests_cant": "All histories.", "anchors": ["tool/klint/verif/spec_utils.py: ExpiringSet"]}
{"id": "C61", "title": "The firewall only lets external traffic in for flows opened from inside", "statement": "Through any packet history, a packet received on the external device is forwarded only if it is the reverse of a flow for which an internal packet was forwarded and whose last activity is within the expiration time; packets from inside are forwarded whenever they are IPv4 TCP/UDP, and all others are dropped.", "quantifier": "all packet histories and timings", "why_tests_cant": "Unbounded histories.", "anchors": ["nf/firewall/firewall.c: nf_init, nf_handle", "nf/firewall/flow_table.h: flow_table_learn_internal, flow_table_has_external"]}
{"id": "C62", "title": "NAT translates replies back to the internal flow that opened them", "statement": "Through any packet history, a translated external reply is delivered to exactly the internal address, port and device flow that currently owns the external port, and two live flows never share a port.", "quantifier": "all packet histories and timings", "why_tests_cant": "Unbounded histories, expiry and reuse.", "anchors": ["nf/nat/nat.c: nf_handle", "nf/nat/flow_table.h: flow_table_get_internal, flow_table_get_external"]}
{"id": "C63", "title": "Flow tables stay bijective and bounded", "statement": "Through any history, the flow table's forward map, flow array and index pool describe one bijection between live flows and indices below the capacity.", "quantifier": "all histories", "why_tests_cant": "Unbounded histories.", "anchors": ["nf/firewall/flow_table.h: flow_table_learn_internal, flow_table_has_external", "nf/nat/flow_table.h"]}
{"id": "C64", "title": "The policer never lets a source exceed its allowance", "statement": "Through any packet history, the bytes forwarded to one destination address during any interval are at most burst + rate times the interval's duration.", "quantifier": "all packet histories, sizes, timings", "why_tests_cant": "All histories.", "anchors": ["nf/policer/policer.c: nf_handle"]}
{"id": "C65", "title": "The bridge never sends a frame back to where it came from and forwards to learned ports", "statement": "Through any packet history, the bridge never transmits a frame on its ingress device; a frame to an address learned and still live on another device is sent only there; otherwise it is flooded.", "quantifier": "all packet histories", "why_tests_cant": "Unbounded histories.", "anchors": ["nf/bridge/bridge.c: nf_handle"]}
{"id": "C66", "title": "Header rewriting keeps checksums valid", "statement": "Updating a packet's addresses or ports through the packet API leaves the IPv4 header checksum valid if it was valid before and touches no other header field.", "quantifier": "all headers and updates", "why_tests_cant": "All 16-bit words.", "anchors": ["env/include/net/packet.h: net_checksum_update, net_packet_checksum_update, net_packet_checksum_update_32"]}
{"id": "C67", "title": "The load balancer keeps a live flow on its backend", "statement": "Once a flow has been sent to a backend, later packets of the flow go to the same backend while flow and backend stay live.", "quantifier": "all packet histories", "why_tests_cant": "Unbounded histories.", "anchors": ["nf/maglev/maglev.c: nf_handle", "nf/maglev/balancer.h: balancer_get_backend"]}
{"id": "C68", "title": "PCI configuration addresses are decoded and combined correctly", "statement": "A PCI configuration write followed by a data access addresses exactly the bus, device, function and register encoded in the address port, and malformed accesses are rejected.", "quantifier": "all 32-bit addresses, access sequences", "why_tests_cant": "2^32 addresses and all sequences.", "anchors": ["tool/kalm/plugins/pci.py: handle_in, handle_out, _parse_address"]}
{"id": "C69", "title": "Device register initial values match the data sheet description", "statement": "A register's initial value has every specified field equal to its initial value, leaves unspecified fields free, and has every reserved bit zero.", "quantifier": "all well-formed register descriptions and bit positions", "why_tests_cant": "All descriptions.", "anchors": ["tool/klint/fullstack/reg_util.py: __constrain_field, __init_reg_val_symb, __init_reg_val_con"]}
{"id": "C70", "title": "Changing one register field changes nothing else", "statement": "Setting one field of a device register gives that field the new value and leaves every other bit and every other register unchanged.", "quantifier": "all registers, fields, values, bit positions", "why_tests_cant": "All bit positions.", "anchors": ["tool/klint/fullstack/reg_util.py: change_reg_field, update_reg, fetch_reg"]}
{"id": "C71", "title": "Writes to read-only or inaccessible register fields are rejected", "statement": "A register write that may change a field that is not writable is rejected, and so is a write to a read-only register that changes no writable field of it.", "quantifier": "all registers, old and new values, field lists", "why_tests_cant": "All field combinations.", "anchors": ["tool/klint/fullstack/reg_util.py: check_access_write, find_fields_on_write"]}
{"id": "C72", "title": "Register lookup maps an address to the register instance that occupies it", "statement": "Looking up a concrete device address returns the register and index whose address range covers it.", "quantifier": "all register layouts and addresses", "why_tests_cant": "All addresses.", "anchors": ["tool/klint/fullstack/reg_util.py: find_reg_from_addr"]}
{"id": "C73", "title": "Invariant widening is monotone and covers the new items", "statement": "Relaxing a map's invariant with the items of new states yields an invariant implied by the old one and satisfied by each item that violated it.", "quantifier": "all invariants, states, items, assignments", "why_tests_cant": "All assignments.", "anchors": ["tool/klint/ghostmaps.py: flatten_items, find_constraints"]}
{"id": "C74", "title": "A reported fixpoint is inductive", "statement": "When invariant inference reports a fixpoint, every state reached by processing one packet from a state satisfying the inferred invariants satisfies them again.", "quantifier": "all states, packets, invariants", "why_tests_cant": "All executions.", "anchors": ["tool/klint/ghostmaps.py: infer_invariants, flatten_items, get_length_invariants", "tool/klint/executor.py: find_fixedpoint_states"]}
{"id": "C75", "title": "Fixpoint search returns only states from a converged iteration", "statement": "The states returned for verification are those explored from the starting states of the iteration in which inference reported no change, and the search only ever continues from the relaxed states.", "quantifier": "all inference behaviours and iteration counts", "why_tests_cant": "Unbounded iterations.", "anchors": ["tool/klint/executor.py: find_fixedpoint_states, get_libnf_inited_states"]}
{"id": "C76", "title": "Object metadata is found by identity and survives merges", "statement": "Through any sequence of attachments, looking up metadata of a class for an object returns the last one attached to exactly that object for that class, searching a set of objects returns a match only if it is the only one, and merging is accepted only when all states hold structurally equal metadata.", "quantifier": "all append/get sequences", "why_tests_cant": "All sequences.", "anchors": ["tool/kalm/plugins/metadata.py: append, get, get_one, get_or_none, find, merge"]}
{"id": "C77", "title": "A packet's processing sees one time", "statement": "All time queries while processing a packet in one state return the same time and cycle count, and the time is never the reserved maximum value.", "quantifier": "all query sequences", "why_tests_cant": "All sequences.", "anchors": ["tool/kalm/clock.py: get_time_and_cycles"]}
{"id": "C78", "title": "Statistics durations add up", "statement": "For any sequence of timed work intervals that the recorder accepts, the recorded total per kind equals the sum of the durations of the intervals of that kind, and overlapping intervals are rejected.", "quantifier": "all sequences of starts and ends with any clock", "why_tests_cant": "All sequences.", "anchors": ["tool/klint/statistics.py: work_start, work_end"]}
{"id": "C79", "title": "Reading a program string returns its characters up to the terminator", "statement": "Reading a string returns exactly the bytes before the first zero byte and aborts on symbolic bytes.", "quantifier": "all memories, pointers", "why_tests_cant": "All lengths.", "anchors": ["tool/kalm/utils.py: read_str"]}
{"id": "C80", "title": "Special memory objects (rings, agents) round-trip", "statement": "Writing a range of an element of a special memory object and reading it back returns the value and leaves other bits and elements unchanged.", "quantifier": "all element counts, sizes, offsets, widths", "why_tests_cant": "All offsets.", "anchors": ["tool/klint/externals/verif/verif.py: _custom_memory"]}
{"id": "C81", "title": "Big-endian stores put bytes at their addresses", "statement": "A big-endian store to a heap allocation puts the value's bytes at the addresses of its range, most significant first, and a big-endian load of the range returns the value, wherever the range lies.", "quantifier": "all element sizes, offsets, widths, values", "why_tests_cant": "All offsets and widths.", "anchors": ["tool/klint/heap.py: _read, _write"]}
{"id": "C82", "title": "The memory-allocation contract admits every real allocation", "statement": "Every block the C allocator returns satisfies the constraints that the symbolic contract puts on the returned address (not null, end within the address space, alignment).", "quantifier": "all allocation histories", "why_tests_cant": "All histories and sizes.", "anchors": ["tool/klint/externals/os/memory.py: os_memory_alloc.run", "tool/klint/heap.py: allocate", "env/src/os/memory_alloc.c: os_memory_alloc"]}
{"id": "C83", "title": "A choice returns one of the candidates offered", "statement": "Whatever path a specification takes, a call to choose returns one of the candidates it was given on that path.", "quantifier": "all specifications with choices, all paths", "why_tests_cant": "All paths and combinations.", "anchors": ["tool/klint/verif/spec_prefix.py: choose", "tool/klint/verif/symbex.py: _symbex"]}
{"id": "C84", "title": "The firewall satisfies its published specification", "statement": "Whatever packets came before, handling a packet makes every assertion of the firewall's specification true, with the specification's set read from the firewall's real data structures before and after.", "quantifier": "all packet histories, packets, hash functions, capacities", "why_tests_cant": "All histories and states of the data structures.", "anchors": ["nf/firewall/spec.py: spec", "nf/firewall/firewall.c: nf_handle", "nf/firewall/flow_table.h", "tool/klint/verif/spec_utils.py: ExpiringSet"]}
{"id": "C85", "title": "The NAT satisfies its published specification", "statement": "Whatever packets came before, handling a packet makes every assertion of the NAT's specification true, with the specification's set read from the NAT's real data structures before and after.", "quantifier": "all packet histories, packets, hash functions, capacities", "why_tests_cant": "All histories and states of the data structures.", "anchors": ["nf/nat/spec.py: spec", "nf/nat/nat.c: nf_handle", "nf/nat/flow_table.h"]}
{"id": "C86", "title": "Both drivers deliver packets to the devices the network function names", "statement": "Transmitting a packet to a device delivers it to exactly that device; flooding delivers it to all devices but the one it came from, and flooding with exceptions to those of them not excepted, in either driver.", "quantifier": "all device counts, ingress and egress devices, exception sets", "why_tests_cant": "All combinations of devices.", "anchors": ["env/src/net/tinynf/main.c: net_transmit, net_flood, net_flood_except, index_from_device, device_from_index", "env/src/net/dpdk/main.c: net_transmit, net_flood, net_flood_except"]}
{"id": "C87", "title": "The bridge's spanning tree follows the smallest root and keeps blocked ports quiet", "statement": "Through any sequence of frames the bridge's root is the smallest identifier among its own and those of the BPDUs received, and no data frame is sent on a port the spanning tree has blocked.", "quantifier": "all frame sequences", "why_tests_cant": "Unbounded sequences.", "anchors": ["nf/bridge/spanning_tree.h: stp_init, stp_handle, stp_blocked_devices", "nf/bridge/bridge.c: nf_handle"]}
{"id": "C88", "title": "The load balancer sends traffic to live backends only, and drops it only if there is none", "statement": "Through any packet history, a TCP/UDP packet that arrives on the last device is sent to a backend that gave a sign of life within the expiration time, if there is one, and dropped otherwise; nothing else is forwarded.", "quantifier": "all packet histories, hash functions, table heights", "why_tests_cant": "Unbounded histories.", "anchors": ["nf/maglev/maglev.c: nf_init, nf_handle", "nf/maglev/balancer.h: balancer_get_backend, balancer_process_heartbeat", "env/src/structs/cht.c"]}
{"id": "C89", "title": "The load balancer satisfies its published specification", "statement": "Whatever packets came before, handling a packet makes every assertion of the load balancer's specification true.", "quantifier": "all packet histories, packets, hash functions, capacities", "why_tests_cant": "All histories and states of the data structures.", "anchors": ["nf/maglev/spec.py: spec", "nf/maglev/maglev.c: nf_handle", "nf/maglev/balancer.h: balancer_get_backend"]}
{"id": "C90", "title": "A register write the tool accepts is allowed by the data sheet's actions", "statement": "Whenever the tool accepts a driver's write to a device register, each field whose value may change, and that does not ignore writes, is covered by an action of the device specification that allows the new value and whose precondition holds of the registers at that point.", "quantifier": "all register states, symbolic values, path constraints and addresses", "why_tests_cant": "All values, states and constraints; a driver's run exercises a handful of writes.", "anchors": ["tool/klint/fullstack/reg_util.py: verify_write, find_fields_on_write, check_access_write", "tool/klint/fullstack/spec_act.py: actions", "tool/klint/fullstack/ast_util.py: generateConstraints", "tool/klint/fullstack/device.py: device_writer"]}
{"id": "C91", "title": "Fields that ignore writes keep their value", "statement": "After an accepted register write, reading the register back gives the old value in the fields that the device specification marks as ignoring writes.", "quantifier": "all registers, states and written values", "why_tests_cant": "All values and states.", "anchors": ["tool/klint/fullstack/reg_util.py: check_access_write, update_reg", "tool/klint/fullstack/device.py: device_writer"]}
{"id": "C92", "title": "The order of device start-up and shut-down is enforced", "statement": "A driver whose writes are all accepted moves the tail of a receive or transmit ring only while that ring is enabled, enables reception only when the receive path is ready, and disables bus mastering only when all receive queues are disabled.", "quantifier": "all sequences of register writes, queue numbers and values", "why_tests_cant": "All queue numbers and register states.", "anchors": ["tool/klint/fullstack/spec_act.py: actions", "tool/klint/fullstack/spec_reg.py: registers", "tool/klint/fullstack/reg_util.py: verify_write"]}
{"id": "C93", "title": "An accepted write has all the effects the device specification lists for it", "statement": "After an accepted register write, the fields set or cleared by the postconditions of the actions it matched have these values, and all other fields and registers keep theirs.", "quantifier": "all register states, written values and indices", "why_tests_cant": "All combinations of fields and actions.", "anchors": ["tool/klint/fullstack/device.py: device_writer", "tool/klint/fullstack/ast_util.py: applyAST", "tool/klint/fullstack/reg_util.py: change_reg_field, verify_write"]}
{"id": "C94", "title": "Inferred invariants speak only of the item and of what the starting states share", "statement": "A relaxed invariant mentions, besides what the old one mentioned, only the key and value of the item it is about and symbols known to every starting state that belong to no map's unknown item; nothing of the packet or path that made it necessary.", "quantifier": "all states, items, constraints", "why_tests_cant": "All constraint sets and items.", "anchors": ["tool/klint/ghostmaps.py: find_constraints, get_variables, flatten_items"]}
{"id": "C95", "title": "An accepted register write takes effect", "statement": "After an accepted register write, reading the register back gives the written value in every field except those changed by the effects the device specification lists for the recorded action; these effects hold, and every other field and register keeps its value.", "quantifier": "all register histories, states, symbolic values and addresses", "why_tests_cant": "All values, states and histories of writes.", "anchors": ["tool/klint/fullstack/device.py: device_writer, device_reader", "tool/klint/fullstack/reg_util.py: update_reg, fetch_reg, change_reg_field", "tool/klint/fullstack/ast_util.py: applyAST"]}
{"id": "C96", "title": "A network function is verified with every packet the network can deliver", "statement": "The packet passed to a network function has an Ethernet frame's length, an existing device and a time of the clock, at the places the C structure has them. Every such length, device, content, address and clock reading is among the packets, for each environment the function can be linked with. The specification compares with this packet as it was received, whatever the function did to it.", "quantifier": "all packets, addresses, device counts, clock readings, handler actions", "why_tests_cant": "All packets.", "anchors": ["tool/klint/externals/net/packet.py: alloc, get_length", "tool/kalm/clock.py: get_time_and_cycles", "tool/klint/verif/spec_prefix.py: _SpecPacket, _spec_wrapper", "env/include/net/skeleton.h: net_packet", "env/src/net/dpdk/main.c: main"]}
{"id": "C97", "title": "What a specification sees as transmitted is what the drivers send", "statement": "When a handler transmits or floods a packet, the devices, length and bytes the specification is shown are those of the frames that each driver puts on the wire for the same actions; when it does not transmit, nothing is sent. Two transmissions of a packet are reported.", "quantifier": "all handler actions, devices, flags, lengths and contents; both drivers", "why_tests_cant": "All sequences of actions and packets.", "anchors": ["tool/klint/externals/net/tx.py: net_transmit, net_flood, net_flood_except", "tool/klint/verif/spec_prefix.py: _SpecFloodedDevice, _SpecSingleDevice, _SpecPacket", "env/src/net/tinynf/main.c: net_transmit, net_flood, net_flood_except", "env/src/net/dpdk/main.c: net_transmit, net_flood, net_flood_except"]}
{"id": "C98", "title": "Configuration lookups are verified for every configuration, and only for configurations", "statement": "A program that looks names up in its configuration and branches on what it finds is explored for every configuration. On a path, lookups of one name agree with each other, as they do in a configuration; different names have independent values; the specification reads the values that the program read.", "quantifier": "all programs, configurations, orders of lookups", "why_tests_cant": "All configurations and programs.", "anchors": ["tool/klint/externals/os/config.py: os_config_try_get", "tool/klint/verif/spec_prefix.py: _SpecConfig", "env/src/os/config.c: os_config_try_get"]}
{"id": "C99", "title": "The clock counts nanoseconds, goes forward, and never reads TIME_MAX", "statement": "Until its 64 bits are used up, the time is at most 10 nanoseconds behind the time since the time-stamp counter started, never goes back, and is never the value reserved for 'no time', on each environment.", "quantifier": "all processors' frequencies and counter values", "why_tests_cant": "All counter values and frequencies.", "anchors": ["env/include/os/clock.h: os_clock_time_ns", "env/include/arch/tsc.h: tsc_get_nhz", "env/src/os/dpdk/init.c: os_init", "env/src/os/linux/init.c: os_init", "env/src/os/metal/init.c: os_init"]}
{"id": "C100", "title": "Sleeping lasts at least the time asked for, and ends", "statement": "A call to sleep for some nanoseconds asks the system for at least that long, on each environment, and returns.", "quantifier": "all durations, sequences of counter readings", "why_tests_cant": "All durations and readings.", "anchors": ["env/src/os/linux/clock.c: os_clock_sleep_ns", "env/src/os/metal/clock.c: os_clock_sleep_ns", "env/src/os/dpdk/clock.c: os_clock_sleep_ns"]}
{"id": "C101", "title": "The driver hands each packet to the network function once, in order, and sends exactly what it asked for", "statement": "Whatever the timing of the driver and the network cards: the network function is called once for each received packet, in the order they arrived; each output sends the frames the function asked for there, whole, once and in order, with the contents the function left in the buffer; nothing else is sent. A packet that was received is handled, and its frames given to the outputs, within a bounded number of the driver's steps. The device a frame leaves on is the one the function named.", "quantifier": "all interleavings of the driver with receptions, transmissions and head write-backs; all network functions, packets, numbers of outputs", "why_tests_cant": "All interleavings and histories.", "anchors": ["env/src/net/tinynf/ixgbe.c: tn_run_peragent", "env/src/net/tinynf/ixgbe.c: tn_agent_init", "env/src/net/tinynf/main.c: tinynf_packet_handler"]}
{"id": "C102", "title": "No packet overwrites another in the driver's buffers", "statement": "The network card never receives a packet into a buffer that an output has still to send, that the network function is working on, or that holds a packet not yet handled.", "quantifier": "all interleavings of the driver with the cards", "why_tests_cant": "All interleavings and histories.", "anchors": ["env/src/net/tinynf/ixgbe.c: tn_run_peragent"]}
{"id": "C103", "title": "The driver does not stop receiving", "statement": "Whenever the driver waits for a packet and the outputs have sent all they were given, the card can receive another.", "quantifier": "all interleavings of the driver with the cards", "why_tests_cant": "All interleavings and histories.", "anchors": ["env/src/net/tinynf/ixgbe.c: tn_run_peragent", "env/src/net/tinynf/ixgbe.c: IXGBE_AGENT_RECYCLE_PERIOD"]}
{"id": "C104", "title": "Agents do not share queues", "statement": "With one agent per device and the other devices as its outputs, no two agents use the same transmit queue of a device, and up to eleven devices every queue used exists.", "quantifier": "all numbers of devices, all pairs of agents", "why_tests_cant": "All device counts.", "anchors": ["env/src/net/tinynf/ixgbe.c: tn_agent_init", "env/src/net/tinynf/ixgbe.c: tn_agent_add_output", "env/src/net/tinynf/main.c: main"]}
{"id": "C105", "title": "The DHCP server's addresses are usable and distinct", "statement": "After a successful start, each of the addresses the server can give out is in its network, is neither the network's own nor its broadcast address, is not the server's, the gateway's or the name server's, and no address is there twice; there are no more of them than configured.", "quantifier": "all configurations with a mask of leading ones", "why_tests_cant": "All configurations.", "anchors": ["nf/dhcp_ipv4/dhcp.c: nf_init"]}
{"id": "C106", "title": "The DHCP server gives an address to one client at a time", "statement": "When an address is offered or acknowledged to one client and later to a different one, the first one's lease (the configured expiration time since it was last given the address) was over.", "quantifier": "all configurations, all sequences of DISCOVER and REQUEST messages at non-decreasing times, all hash functions", "why_tests_cant": "All histories.", "anchors": ["nf/dhcp_ipv4/dhcp.c: try_create_dhcp_discover_message", "nf/dhcp_ipv4/dhcp.c: is_dhcp_request_message_accepted", "nf/dhcp_ipv4/dhcp.c: nf_init"]}
{"id": "C107", "title": "A DHCP lease lasts as long as the client is told", "statement": "The server does not give a client's address to another one before the lease time it announced (seconds, RFC 2132) is over.", "quantifier": "all configurations and sequences of messages", "why_tests_cant": "All histories.", "anchors": ["nf/dhcp_ipv4/dhcp.c: try_create_dhcp_discover_message", "nf/dhcp_ipv4/dhcp.c: create_dhcp_ack_message", "nf/dhcp_ipv4/dhcp.c: nf_init"]}
{"id": "C108", "title": "The DHCP server answers a client as long as it has addresses", "statement": "A DHCPDISCOVER is answered with an offer unless every address is leased to another client.", "quantifier": "all configurations, all sequences of messages, all packets", "why_tests_cant": "All histories and packets.", "anchors": ["nf/dhcp_ipv4/dhcp.c: nf_handle", "nf/dhcp_ipv4/dhcp.c: try_create_dhcp_discover_message", "nf/dhcp_ipv4/dhcp.h: net_get_dhcp_header"]}
{"id": "C109", "title": "The DHCP server's replies are well formed and stay in the message", "statement": "A reply to a well-formed message is written within the message, has the operation code of a reply, and its options are a well-formed list with the message type, server identifier, mask, lease time, gateway and name server configured (for a refusal: the message type).", "quantifier": "all messages, configurations and tables", "why_tests_cant": "All messages.", "anchors": ["nf/dhcp_ipv4/dhcp.h: set_dhcp_offer_option", "nf/dhcp_ipv4/dhcp.h: set_dhcp_ack_option", "nf/dhcp_ipv4/dhcp.h: set_dhcp_nack_option", "nf/dhcp_ipv4/dhcp.c: create_dhcp_ack_message"]}
{"id": "C110", "title": "A DHCP client keeps its address", "statement": "A client that is given an address, and given one again within the lease, is given the same one. A REQUEST for it within the lease is acknowledged, and a REQUEST is acknowledged only if it asks for the address it is then given.", "quantifier": "all configurations, all sequences of DISCOVER and REQUEST messages at non-decreasing times, all hash functions", "why_tests_cant": "All histories.", "anchors": ["nf/dhcp_ipv4/dhcp.c: try_create_dhcp_discover_message", "nf/dhcp_ipv4/dhcp.c: is_dhcp_request_message_accepted"]}
{"id": "C111", "title": "The router satisfies its published specification", "statement": "After any history of management commands and packets, what the router does with the next packet satisfies nf/router/spec.py as the tool evaluates it, for every longest-prefix-match structure that behaves as its header says.", "quantifier": "all histories, packets, numbers of devices, capacities and lookup structures", "why_tests_cant": "All histories and tables.", "anchors": ["nf/router/router.c: nf_handle", "nf/router/spec.py: spec"]}
{"id": "C112", "title": "The router validates packets as RFC 1812 says", "statement": "A packet is forwarded only if its IP checksum is valid, its version is 4, its header length at least 20 bytes and its total length at least that, and its time to live is not over; a valid packet with a route is forwarded, with its time to live decremented.", "quantifier": "all packets and tables", "why_tests_cant": "All packets.", "anchors": ["nf/router/router.c: nf_handle", "env/include/net/packet.h: net_ipv4_checksum_valid"]}
{"id": "C113", "title": "The router sends a packet to the longest matching network", "statement": "A packet is sent to the device of the longest route whose network contains the packet's destination address (first bits of the dotted address), and dropped if there is none.", "quantifier": "all tables of routes and destinations", "why_tests_cant": "All tables and addresses.", "anchors": ["nf/router/router.c: nf_handle", "env/include/structs/lpm.h: lpm_search", "tool/klint/externals/structs/lpm.py: LpmSearch.run"]}
{"id": "C114", "title": "The router uses its environment as it must", "statement": "The router transmits only on devices that exist, and calls lpm_set only within its documented preconditions.", "quantifier": "all histories", "why_tests_cant": "All histories.", "anchors": ["nf/router/router.c: nf_handle", "env/include/structs/lpm.h: lpm_set"]}
{"id": "C115", "title": "The policer in Rust is the policer in C", "statement": "Given the same configuration, both policers start or both refuse, and through any packet history they give each packet the same verdict; the Rust policer makes no reference Rust forbids.", "quantifier": "all configurations and packet histories", "why_tests_cant": "All histories.", "anchors": ["nf/rust-policer/src/lib.rs: nf_init, nf_handle", "nf/rust-policer/src/defs.rs: net_get_ipv4_header", "nf/policer/policer.c: nf_init, nf_handle"]}
{"id": "C116", "title": "The no-op function forwards every packet to the other side", "statement": "With two different existing devices configured, every packet leaves, once and unchanged but for its Ethernet addresses, on the LAN device if it came from the WAN device and on the WAN device otherwise, as the published specification says; without them the function refuses to start.", "quantifier": "all configurations, packets, devices and both drivers", "why_tests_cant": "All packets and configurations.", "anchors": ["nf/nop/nop.c: nf_init, nf_handle", "nf/nop/spec.py: spec"]}
{"id": "C117", "title": "The policers satisfy their published specification", "statement": "After any packet history, what either policer does with the next packet satisfies its spec.py; what it lets through leaves on the other device, unchanged.", "quantifier": "all configurations, packet histories and both drivers", "why_tests_cant": "All histories.", "anchors": ["nf/policer/policer.c: nf_handle", "nf/policer/spec.py: spec", "nf/rust-policer/src/lib.rs: nf_handle", "nf/rust-policer/spec.py: spec"]}
{"id": "C118", "title": "The bridge satisfies its published specification", "statement": "After any history of frames, where the bridge sends the next frame satisfies nf/bridge/spec.py: never back, to all other devices if the address is not in the filtering database, and the spanning tree's time is updated when due.", "quantifier": "all histories of frames", "why_tests_cant": "All histories.", "anchors": ["nf/bridge/bridge.c: nf_handle", "nf/bridge/spec.py: spec", "nf/bridge/spanning_tree.h: stp_handle"]}
{"id": "C119", "title": "The driver's register helpers change only the field they are given", "statement": "Writing a field of a register reads it once and writes it once, with the value in the field and all other bits as read; setting and clearing likewise; reading a field gives exactly its bits; the masks BIT and BITS have exactly the bits named and the search for the first bit ends.", "quantifier": "all registers, fields, values, and contents of the registers", "why_tests_cant": "All fields and contents.", "anchors": ["env/src/net/tinynf/ixgbe.c: BIT, BITS, find_first_set, reg_read_field, reg_write_field, reg_clear_field, reg_set_field, reg_is_field_cleared"]}
{"id": "C120", "title": "The driver writes to the card only what the data sheet allows", "statement": "In every execution of a card's start-up, of promiscuous mode and of the set-up of agents, whatever the cards answer, every write is to an instance of a register the data sheet defines, keeps reserved bits, and changes a field only if there is an action for it whose precondition the driver has seen to hold.", "quantifier": "all cards' answers, numbers of cards and agents", "why_tests_cant": "All answers of the hardware.", "anchors": ["env/src/net/tinynf/ixgbe.c: tn_device_init, tn_device_set_promiscuous, tn_agent_init, tn_agent_add_output, tn_agent_set_input", "tool/klint/fullstack/spec_reg.py: registers", "tool/klint/fullstack/spec_act.py: actions"]}
{"id": "C121", "title": "The driver accesses only the memory it maps", "statement": "Every register access of the driver's set-up is an aligned word inside the 128 KB of the card's memory the driver maps, and every configuration access is inside the 256 bytes of configuration space.", "quantifier": "all cards' answers, numbers of cards and agents", "why_tests_cant": "All answers of the hardware.", "anchors": ["env/src/net/tinynf/ixgbe.c: tn_device_init, tn_agent_init, reg_read, reg_write, pcireg_read"]}
{"id": "C122", "title": "A timeout is reported only if the condition lasts for the timeout", "statement": "Waiting with a timeout tests the condition over the whole timeout: its failure code is executed if and only if the condition is still true after that time, and waiting ends as soon as a test finds it false, never later than the timeout.", "quantifier": "all timeouts, conditions and behaviours of the card over time", "why_tests_cant": "All behaviours over time.", "anchors": ["env/src/net/tinynf/ixgbe.c: IF_AFTER_TIMEOUT"]}
{"id": "C123", "title": "Start-up ends", "statement": "Whatever the cards answer, the start-up of a card and of an agent ends, with success or a fatal error, within a fixed number of accesses and a fixed time of sleeping.", "quantifier": "all cards' answers, numbers of cards", "why_tests_cant": "All answers of the hardware.", "anchors": ["env/src/net/tinynf/ixgbe.c: tn_device_init, tn_agent_init"]}
{"id": "C124", "title": "A card is started in the order and with the configuration the data sheet prescribes", "statement": "A card is reset only after each of its 128 receive queues was seen disabled; after a reset it is left alone for 10 ms, or for more than 1 us when another reset follows; and the packet buffers for sending are changed only while the arbiter is disabled. On a card that keeps what is written and is ready after its reset, start-up ends with success and with the configuration the data sheet asks of a driver without multiple queues, virtualization or traffic classes: every entry of the multicast and filter tables cleared, packet buffers and thresholds as prescribed, CRC stripped, the arbiter enabled; for each of the 128 sending queues the rate limit is cleared while the queue is selected.", "quantifier": "all cards' answers, all previous contents of the registers", "why_tests_cant": "All answers of the hardware.", "anchors": ["env/src/net/tinynf/ixgbe.c: tn_device_init"]}
{"id": "C125", "title": "Promiscuous mode accepts all packets, and only changes the filter while reception is disabled", "statement": "After promiscuous mode is set on a card that keeps what is written, it accepts all unicast and multicast packets, reception is enabled exactly if it was, and no other register has changed; whatever the card answers, the filter is written only while reception was last seen or made disabled.", "quantifier": "all contents of the registers and answers of the card", "why_tests_cant": "All contents.", "anchors": ["env/src/net/tinynf/ixgbe.c: tn_device_set_promiscuous"]}
{"id": "C126", "title": "Ethernet addresses are those of the cards, and destinations are distinct", "statement": "The address the program uses for a card is the one in its first receive address registers, with only 48 bits; the destination addresses of different devices are different.", "quantifier": "all contents of the registers, all devices", "why_tests_cant": "All contents.", "anchors": ["env/src/net/tinynf/ixgbe.c: tn_device_get_mac", "env/src/net/tinynf/network.h: tn_device_get_mac", "env/src/net/tinynf/main.c: main"]}
{"id": "C127", "title": "Configuration reads and the mapped address are those of the card", "statement": "Reading a configuration register gives the value at that offset in the configuration space of that bus, device and function; a card is started only if it is an 82599 in state D0 with a 64-bit address, and exactly that address is mapped.", "quantifier": "all configuration spaces, addresses and registers", "why_tests_cant": "All configuration spaces.", "anchors": ["env/include/os/pci.h: os_pci_read", "env/src/net/tinynf/ixgbe.c: tn_device_init, pcireg_read, PCIREG_DEVICESTATUS"]}
{"id": "C128", "title": "Byte-order conversions reverse bytes", "statement": "The conversions between the processor's and the network's byte order of 16, 32 and 64 bits reverse the bytes of the value.", "quantifier": "all values", "why_tests_cant": "All values.", "anchors": ["env/include/arch/endian.h: swap16, swap32, swap64"]}
{"id": "C129", "title": "Set-up overwrites the structures it is given", "statement": "Setting up a card and an agent does not depend on the previous contents of the structures passed: after a set-up that succeeds the card sends and receives.", "quantifier": "all previous contents of the structures", "why_tests_cant": "All contents.", "anchors": ["env/src/net/tinynf/network.h: tn_device_init, tn_agent_init", "env/src/net/tinynf/ixgbe.c: tn_device_init, tn_agent_init, tn_agent_set_input, tn_agent_add_output"]}
{"id": "C130", "title": "A queue set up by the driver has the addresses, sizes and options of the agent's ring", "statement": "If a place of an agent and a sending queue of a card are free, adding an output succeeds and leaves the queue enabled with the physical addresses of the agent's ring and head, 256 descriptors, and the thresholds and write-back of the data sheet; setting the input likewise shares the first output's ring with receiving queue 0, with room for packets of 2048 bytes and all but one descriptors given to the card; sending and receiving are enabled; other registers are unchanged. The ring's 256 buffers are separate parts of the agent's buffer.", "quantifier": "all agents, cards, places, queues, physical addresses and contents of the registers", "why_tests_cant": "All contents and addresses.", "anchors": ["env/src/net/tinynf/ixgbe.c: tn_agent_add_output, tn_agent_set_input"]}
{"id": "C131", "title": "A program accepted under the map contract gets the contract's results from the real map", "statement": "If the tool's contracts accept every call a program makes on maps and every write it makes to the keys' memory, then the C map, whatever its hash function, gives each call the result the contract gave it, over the whole history and for any number of maps sharing keys.", "quantifier": "all programs over maps and an array of keys, all key sizes, capacities, hash functions and histories", "why_tests_cant": "All histories of calls and writes.", "anchors": ["tool/klint/externals/structs/map.py: map_get, map_set, map_remove", "env/src/structs/map.c: map_get, map_set, map_remove", "tool/klint/heap.py: take, give"]}
{"id": "C132", "title": "The network functions use the data structures only as their contracts require, and what the contracts promise holds of the real structures", "statement": "For every sequence of packets, the firewall, NAT, policer, bridge and load balancer call the maps, pools and arrays only as the contracts in the headers require (a key is not written while it is in the map, a key is put once, an index is in range, packets go to existing devices), and whatever is true of a program with every behaviour the contracts allow is true of it with the C structures. Their allocations at start-up also respect the contracts.", "quantifier": "all packet sequences, times, capacities, hash functions, memory layouts and behaviours the contracts allow", "why_tests_cant": "All behaviours the contracts allow, over all histories.", "anchors": ["env/include/structs/map.h", "env/include/structs/index_pool.h", "env/include/structs/cht.h", "nf/firewall", "nf/nat", "nf/policer", "nf/bridge", "nf/maglev"]}
{"id": "C133", "title": "Comparing, hashing and copying memory do what their contracts say", "statement": "Comparing two objects of a length says whether their bytes are equal. Hashing ends, reads exactly the object's bytes and gives a 32-bit value that depends on these bytes alone, not on where they are; keys of four bytes never collide. Copying between ranges that do not overlap makes the destination equal to the source and changes nothing else. None reads or writes outside the ranges given.", "quantifier": "all memories, addresses and lengths", "why_tests_cant": "All objects at all addresses; the existing proof assumes the hash function instead of checking it.", "anchors": ["env/include/os/memory.h: os_memory_eq, os_memory_hash, os_memory_copy"]}
{"id": "C134", "title": "Memory given to a network card is contiguous in physical memory", "statement": "On Linux, translating an address to a physical one never succeeds for a page that is not present; every block handed out by the allocator has consecutive physical addresses, so it can be given to a device by its first one, and no two blocks share physical memory.", "quantifier": "all page tables, page sizes, allocation histories and addresses", "why_tests_cant": "All page tables and histories.", "anchors": ["env/src/os/linux/memory.c: os_memory_virt_to_phys", "env/src/os/linux/init.c: os_init", "env/include/os/memory.h"]}
{"id": "C135", "title": "Allocation over DPDK keeps the allocator's promises", "statement": "On DPDK, an allocation never returns null, and its result has the alignment the header promises; the alignment requested from DPDK is one that DPDK accepts.", "quantifier": "all counts, sizes and behaviours of DPDK's allocator", "why_tests_cant": "All sizes and allocator behaviours.", "anchors": ["env/src/os/dpdk/memory.c: os_memory_alloc", "env/include/os/memory.h: os_memory_alloc"]}
{"id": "C136", "title": "The program gets exactly the configured devices", "statement": "Enumerating the devices, after any allocations and writes by the program, returns as many addresses as configured, each equal to the configured one, in memory that no other block shares, and changes no other memory.", "quantifier": "all configurations, allocation and write histories", "why_tests_cant": "All histories and configurations.", "anchors": ["env/src/os/pci.c: os_pci_enumerate", "env/src/os/memory_alloc.c"]}
{"id": "C137", "title": "Bare-metal start-up halts, resets, or starts the program on a suitable processor", "statement": "Started by a boot loader that follows the Multiboot2 specification, the start-up code ends in exactly one of three ways: the processor halts, the processor resets, or the program is called. If the program is called, the processor supports every feature that the code's comment lists; a processor that supports them all is not refused.", "quantifier": "all processors (CPUID answers), initial registers and memories, placements of the image", "why_tests_cant": "All processors and initial states; nobody has the machines.", "anchors": ["env/src/os/metal/boot.asm"]}
{"id": "C138", "title": "The bare-metal program starts in the promised state", "statement": "When the program is called, the processor is in 64-bit mode with a read/execute code segment at the highest privilege, the other segments are null, the first four gigabytes are identity-mapped with all permissions, one megabyte of aligned stack is available, no interrupt or exception has a handler, and memory other than the stack and the page tables is as loaded.", "quantifier": "all processors, initial registers and memories, placements of the image", "why_tests_cant": "All initial states and addresses.", "anchors": ["env/src/os/metal/boot.asm", "env/src/os/metal/memory.c"]}
{"id": "C139", "title": "SSE and AVX are enabled when the bare-metal program starts", "statement": "When the program is called, SSE and AVX instructions do not raise exceptions.", "quantifier": "all processors and initial registers", "why_tests_cant": "All initial register values.", "anchors": ["env/src/os/metal/boot.asm"]}
{"id": "C140", "title": "A success is about the program and the specification that were given", "statement": "When the tool says that a program is verified, symbolic execution of the program, as its file is at that time and in the mode asked for, satisfies the given specification - whatever was run, edited or killed before.", "quantifier": "all histories of edits, runs and killed runs, from every initial state of the files", "why_tests_cant": "All histories and kill points.", "anchors": ["tool/klint/__main__.py: handle_libnf, handle_fullstack, verif", "tool/klint/verif/persistence.py: dump_data, load_data"]}
{"id": "C141", "title": "Symbols that verification introduces are new", "statement": "A symbol that a specification introduces has a name that no symbol of the stored results has, so nothing is known about it.", "quantifier": "all sequences of symbols created by an execution and by a verification", "why_tests_cant": "All executions, of any length.", "anchors": ["tool/klint/verif/executor.py: verify", "tool/klint/ghostmaps.py", "tool/klint/externals/os/memory.py"]}
{"id": "C142", "title": "Full-stack verification starts from every card on every start-up path", "statement": "The loop is verified for each network card, with the state of each path of the start-up code that reaches it; start-up code may give up by halting, and the other paths are verified.", "quantifier": "all programs (execution trees of the start-up code)", "why_tests_cant": "All execution trees.", "anchors": ["tool/klint/executor.py: execute_nf", "tool/kalm/executor.py: run_state", "tool/kalm/engine.py: process_successors", "tool/klint/externals/verif/verif.py: foreach_index_forever"]}
{"id": "C143", "title": "Full-stack verification covers every set of network cards", "statement": "The cards that verification assumes are those that a machine can have: any number of them, with any different addresses; an access to the configuration of a card is taken to be for the card with that address, and no execution is left out.", "quantifier": "all numbers of cards, addresses and sets of executions", "why_tests_cant": "All addresses and executions.", "anchors": ["tool/klint/externals/os/pci.py: os_pci_enumerate, get_device"]}
{"id": "C144", "title": "Every packet of every history is among those that were explored", "statement": "Once the search for invariants has stopped, the executions it returns cover every real packet: whatever packets were handled since start-up, the next one is one of the explored executions, with the same results of all its operations.", "quantifier": "all programs, histories of packets and contents of maps", "why_tests_cant": "Histories of any length; the tool explores one packet.", "anchors": ["tool/klint/executor.py: find_fixedpoint_states", "tool/klint/ghostmaps.py: infer_invariants, get_length_invariants, maps_merge_across"]}
{"id": "C145", "title": "A program can be verified together with its driver", "statement": "Full-stack verification of a program that uses its network cards as the tool's models of them allow goes on to explore its handling of packets: the models of the cards exist, and a packet can be received on each of them.", "quantifier": "all programs' accesses to the cards' configuration space and registers at start-up, with and without Python's assertions", "why_tests_cant": "All programs; the tool's tests run programs without their drivers.", "anchors": ["tool/klint/fullstack/device.py: spec_device_create_default, get_device, find_device, receive_packet_on_device", "tool/klint/externals/os/pci.py: get_device", "tool/klint/externals/net/packet.py: NetworkMetadata"]}
{"id": "C146", "title": "Accesses to the same address see the same memory", "statement": "When the program stores to an address and loads from it, however the two addresses were computed, both accesses reach the same byte: of the object the address lies in, or of the program's own memory if it lies in none; bytes are swapped only if the access asks for the other byte order.", "quantifier": "all address expressions, path constraints, sets of objects and executions", "why_tests_cant": "All expressions for the same address; which are equal depends on the execution.", "anchors": ["tool/kalm/memory/objects.py: load, store, _should_reverse", "tool/kalm/utils.py: base_index_offset"]}
{"id": "C147", "title": "A specification's maps and cells stand for the program's structures", "statement": "A map or cell declared in a specification stands for one structure that the program allocated, never for the packet or for the tool's own bookkeeping: the same one on every path, with room for the declared keys and values, with exactly one element if it is a cell, a different one for each declaration; the structures that fit best are tried first.", "quantifier": "all declared types, sets of structures, specifications and explored paths", "why_tests_cant": "Which structures exist, and how many elements they have, depends on the path; a wrong one may satisfy the specification.", "anchors": ["tool/klint/verif/spec_prefix.py: Map, Cell, choose, type_size", "tool/klint/heap.py: HeapPlugin.allocate, FRACS_NAME", "tool/klint/externals/net/packet.py: alloc"]}
{"id": "C148", "title": "The shipped specifications are judged by the structures they are meant to speak of", "statement": "For the firewall, the NAT, the load balancer, the router and the bridge: the maps and cells that the specification declares stand for the structures its author meant (the flow table's map, array and pool, the backends' pool, the routing table, the spanning tree's state, the address table), so that verification succeeds if and only if the specification holds of those.", "quantifier": "all contents of the structures, explored paths and specifications with these declarations that fail only by assertions", "why_tests_cant": "A declaration that picks another structure of the same shape can verify a broken function or reject a good one; which one is picked depends on sizes and on the order of allocation.", "anchors": ["tool/klint/verif/spec_prefix.py: Map, Cell, choose", "tool/klint/verif/spec_utils.py: ExpiringSet", "nf/*/spec.py", "nf/firewall/flow_table.h: flow_table_alloc", "nf/nat/flow_table.h: flow_table_alloc", "nf/maglev/balancer.h: balancer_alloc", "nf/bridge/bridge.c: nf_init", "nf/router/router.c: nf_init"]}
{"id": "C149", "title": "Comparing the transmitted packet's contents with the received one's accepts exactly the executions that changed no byte", "statement": "A specification that says that the data of the transmitted packet equals the data of the received packet is satisfied by an execution if and only if the packet has the same length and every byte has the value it was received with, whether it was never written or written back.", "quantifier": "all runs of map operations, all offsets, all solvers", "why_tests_cant": "The bytes are unknown and unboundedly many, and the comparison is answered from recorded items and one fresh symbol; a test compares a few concrete packets.", "anchors": ["tool/klint/verif/spec_prefix.py: _SpecPacketData.__eq__", "tool/kalm/plugins/ghostmaps.py: Map.forall, Map.get, Map.known_items", "nf/firewall/spec.py", "nf/maglev/spec.py"]}
{"id": "C150", "title": "Bridges connected to each other agree on one root and leave no loop: a broadcast reaches every port and dies out", "statement": "In any network of bridges built with this repository, over either driver: the bridges come to agree on the smallest identity as the root; on every loop some port is blocked, so that a broadcast frame does not circulate for ever; and a broadcast frame leaves on every port that can be reached.", "quantifier": "all networks of any number of bridges and ports, all cables, all frames, all orders of arrival, all losses", "why_tests_cant": "The property is about the joint histories of unboundedly many bridges in any topology; a test runs one bridge.", "anchors": ["nf/bridge/spanning_tree.h: stp_handle, stp_init", "nf/bridge/bridge.c: nf_handle, nf_init", "env/src/net/tinynf/main.c: handle_flags, net_flood, main", "env/src/net/dpdk/main.c: handle_flags, device_init, net_flood"]}
{"id": "C151", "title": "The contracts in the structures' headers are what the implementations do, and the lemmas their proofs call are true", "statement": "Every call of the map, of the index pool and of the consistent-hashing table that meets the requires clause in its header, after any history of such calls, meets its ensures clause, on the ghost map that the clauses of the calls before it define. The lemmas about ghost maps, remainders and powers of two that the annotated proofs call hold for all arguments that meet their requires clauses.", "quantifier": "all key sizes, capacities, pool sizes, expiration times, hash functions and histories of calls; all ghost maps, keys, values and integers for the lemmas", "why_tests_cant": "The clauses are ghost code, which no compiled test sees; they quantify over unbounded maps and histories, and several lemmas are declared without a body.", "anchors": ["env/include/structs/map.h", "env/include/structs/index_pool.h", "env/include/structs/cht.h", "env/include/proof/ghost_map.gh", "env/include/proof/modulo.gh", "env/include/proof/arith.gh", "env/include/proof/mod-pow2.gh", "env/src/structs/map.c", "env/src/structs/index_pool.c"]}
{"id": "C152", "title": "The policer forwards exactly the packets that its exact specification forwards", "statement": "After any history of packets, the policer forwards a packet, and to the same device, exactly when the exact specification shipped with it does: a bucket per address with the given rate and burst, an address that has been silent for the time a burst takes to refill starting anew, and new addresses only while there is room.", "quantifier": "all rates, bursts, WAN devices, capacities, hash functions and histories of packets in the order of time", "why_tests_cant": "The exact specification is not run by the tool or by any test; agreement depends on expirations, evictions and refills over the whole history.", "anchors": ["nf/policer/spec-exact.py", "nf/policer/policer.c:nf_handle"]}
{"id": "C153", "title": "The policer gives each address a budget of its own", "statement": "What becomes of the packets to one address does not depend on the packets to other addresses, as long as there are no more addresses than the policer has room for.", "quantifier": "all rates, bursts, capacities, hash functions, addresses and histories of packets in the order of time", "why_tests_cant": "A statement about two executions, with and without the other traffic, for every interleaving.", "anchors": ["nf/policer/policer.c:nf_handle", "env/src/structs/index_pool.c:index_pool_borrow"]}
{"id": "C154", "title": "The firewall's decisions about one flow depend on that flow's packets only", "statement": "As long as there are no more flows from inside than the firewall has room for, what becomes of the packets of one flow does not depend on the packets of others, and a packet from outside comes in exactly when an earlier packet of its flow, no older than the expiration time, was forwarded.", "quantifier": "all capacities, expiration times, hash functions, flows and histories of packets in the order of time", "why_tests_cant": "A statement about two executions, with and without the other traffic, for every interleaving; tests try a few.", "anchors": ["nf/firewall/firewall.c:nf_handle", "nf/firewall/flow_table.h:flow_table_learn_internal", "nf/firewall/flow_table.h:flow_table_has_external"]}
{"id": "C155", "title": "The NAT keeps a flow's port, lets its replies in, and refuses flows only when all ports are in use", "statement": "Through any packet history: a flow from inside that owns a port goes on using it, and owns no other; a packet from the flow's peer to that port is delivered to the flow's own address and port, and otherwise as it was sent, if a packet of the flow was translated within the expiration time; a packet from inside is dropped only if every port is owned by another flow that had a packet translated within the expiration time.", "quantifier": "all addresses, first ports, capacities up to the number of ports, expiration times, hash functions and histories of packets in the order of time", "why_tests_cant": "Depends on expirations and evictions over the whole history, and on traffic of strangers.", "anchors": ["nf/nat/nat.c:nf_handle", "nf/nat/flow_table.h:flow_table_get_internal", "nf/nat/flow_table.h:flow_table_get_external"]}
{"id": "C156", "title": "With room for all stations, the bridge sends a frame only where its destination is", "statement": "After any history of frames from no more stations than the bridge has room for, a data frame to a station that has sent one within the expiration time goes to the device of that station's last frame only (nowhere, if it came from there); a frame to an address that no frame came from goes to all other devices that are not blocked.", "quantifier": "all numbers of devices, capacities, expiration times, hash functions, spanning tree parameters and histories of frames in the order of time", "why_tests_cant": "Depends on which stations were heard when, over an unbounded history, and on collisions in the table.", "anchors": ["nf/bridge/bridge.c:nf_handle", "nf/bridge/bridge.c:nf_init"]}
{"id": "C157", "title": "The policer drops nothing of an address that keeps to its budget", "statement": "If the packets to an address come to fewer bytes, in every interval, than the burst and the rate times the duration of the interval, none of them is dropped, whatever the traffic to other addresses, as long as there are no more addresses than the policer has room for.", "quantifier": "all rates, bursts, capacities, hash functions, addresses and histories of packets in the order of time", "why_tests_cant": "Quantifies over every interval of every history, and over the other addresses' traffic.", "anchors": ["nf/policer/policer.c:nf_handle"]}
{"id": "C158", "title": "The load balancer moves a flow only from a backend that went down or to one that came up", "statement": "If two packets of a flow go to different backends, the first one's backend is not alive any more at the second packet, or the second one's was not alive at the first: when a backend comes up, each flow stays or moves to it, and when one goes down, only its flows move.", "quantifier": "all hash functions, numbers of backends, prime table heights, capacities, expiration times, flows and pairs of histories", "why_tests_cant": "Relates two unbounded histories, for all sets of live backends.", "anchors": ["nf/maglev/maglev.c:nf_handle", "nf/maglev/balancer.h:balancer_get_backend", "env/src/structs/cht.c:cht_find_preferred_available_backend"]}
{"id": "C159", "title": "The load balancer's decisions about a flow do not depend on other flows' packets", "statement": "Where a packet of a flow goes, and whether it is dropped, depends on the flow, the time and the packets that came from the backends only: with the same ones, and whatever other packets before, it is the same.", "quantifier": "all hash functions, numbers of backends, prime table heights, capacities, expiration times, flows and pairs of histories with the same packets from backends", "why_tests_cant": "Relates any two unbounded histories.", "anchors": ["nf/maglev/maglev.c:nf_handle", "nf/maglev/balancer.h:balancer_get_backend"]}
{"id": "C160", "title": "The policer drops a packet only if its address has used up its budget", "statement": "If a packet to an address is dropped, the bytes that have gone out to the address since some earlier packet, and its own, come to at least the burst and the rate times the time since that packet. Packets that were dropped and packets to other addresses do not count.", "quantifier": "all rates, bursts, capacities, hash functions, addresses and histories of packets in the order of time", "why_tests_cant": "Quantifies over every drop in every history, and over the other addresses' traffic.", "anchors": ["nf/policer/policer.c:nf_handle"]}
