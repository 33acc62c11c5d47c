# Formal model of klint: design

The model is written in Coq 8.16.1 under `rocq/theories` (logical name `Verif`).
Each definition cites the file and lines of `/repo` it models and the simplifications it makes.

## Architecture

* `Expr.v` – deep embedding of the claripy expressions the engine builds (bit-vectors with explicit
  width, booleans), their evaluation under an assignment, free variables, structural equality.
* `Solver.v` – path constraints and the solver interface. A solver is a *parameter* (any boolean function that
  is right about satisfiability, `solver_ok`), and a brute-force solver proved to satisfy the premise makes the
  premise inhabited and the model executable.
* model files per area (listed with the properties below), each followed by proofs, and `Props_*.v` files that contain
  only the property theorems (closed with `exact`), their non-vacuity examples and `Print Assumptions`.
* Python exceptions and failed asserts are explicit error results; loops are structural recursion or
  fuelled recursion with an explicit out-of-fuel result; machine arithmetic is `mod 2^w`.

Properties that turn out to be false of the code are kept, proved false on the model (`..._refuted`), and accompanied by the strongest
true part (`..._partial`).

## Plan per property
* **C01** Merging path constraints is exactly disjunction. `KMerge.v`: constraint lists over `bexp`; `merge_constraints` mirrors solver.py 47-64; both directions by induction on the list of states.
* **C02** Merge selector values are distinct and always representable. `KMerge.v`: the selector encoding of merge_states as width `Z.log2_up n`; arithmetic proof.
* **C03** Definite answers are right. `Solver.v`: a solver is any function that decides satisfiability (premise `solver_ok`, instantiated by a proved brute-force solver); definitions follow utils.py 35-53.
* **C04** Guarded forks lose no execution and mix none. `Fork.v`: fork_guarded as a function returning the list of (constraints, branch tag, callback result); coverage/disjointness/feasibility proved for every solver.
* **C05** Exact-match lookup returns a semantically equal candidate. `Solver.v`: get_exact_match branch by branch.
* **C06** Structural comparison is equality and structural diff is a partition. `Structural.v`: value trees (None, expr, str, int, list, dict, tuple); structural_eq reflects a independent inductive equality; structural_diff partition.
* **C07** Address decomposition into terms and multipliers is exact. `MultAdd.v`: `_as_mult_add` on the deep embedding; proof by induction on expressions, arithmetic mod 2^w.
* **C08** Simplified modulo equals modulo. `MultAdd.v`: `_modulo_simplify`; true when b divides 2^w or no wrap-around (`_partial`), refuted in general by a computed witness.
* **C09** Simplified division equals division. `MultAdd.v`: `_div_simplify`; `_partial` for multipliers equal to b or 0-term, refuted by witnesses.
* **C10** Resolved pointers denote the accessed bytes. `BaseIndex.v`: base_index_offset for sums with a known base.
* **C11** Expression simplification preserves meaning. `Simplify.v`: simplify on sums and nested conditionals; ite_excavated / ite_burrowed / solver.simplify enter as functions with a 'meaning preserving' premise.
* **C12** Triage before a merge is a partition that respects the mergeability test. `KMerge.v`: greedy triage, list induction.
* **C13** Exploration never loses a state. `Explore.v`: stash machine of MergingExplorationTechnique.step; invariant: set of covered executions.
* **C14** Merged memory and register values are per-state faithful. `KMerge.v`: ite_cases semantic lemma.
* **C15** The recorded external-call trace survives merging. `KMerge.v`: segments and conditions.
* **C16** Ghost-map reads over-approximate every real map history. `GhostMap.v`, `GhostSpec.v`, `GhostFacts.v`, `GhostSim.v`, `GhostHist.v`, `GhostTrace.v`, `GhostCons.v`: the Map class over the deep embedding with the solver as a parameter, simulated by concrete finite maps, invariants over histories.
* **C17** Read your writes. `GhostMap.v`, `GhostSpec.v`, `GhostFacts.v`, `GhostSim.v`, `GhostHist.v`, `GhostTrace.v`, `GhostCons.v`: the Map class over the deep embedding with the solver as a parameter, simulated by concrete finite maps, invariants over runs. Counterexample for shared layers.
* **C18** Writes and removals do not disturb other keys. `GhostMap.v`, `GhostSpec.v`, `GhostFacts.v`, `GhostSim.v`, `GhostHist.v`, `GhostTrace.v`, `GhostCons.v`: the Map class over the deep embedding with the solver as a parameter, simulated by concrete finite maps, invariants over runs. Counterexample for a length that wraps to 0.
* **C19** Map length tracks the number of present keys. `GhostMap.v`, `GhostSpec.v`, `GhostFacts.v`, `GhostSim.v`, `GhostHist.v`, `GhostTrace.v`, `GhostCons.v`: the Map class over the deep embedding with the solver as a parameter, simulated by concrete finite maps, invariants over runs. Counterexample for shared layers.
* **C20** Two reads with equal keys agree. `GhostMap.v`, `GhostSpec.v`, `GhostFacts.v`, `GhostSim.v`, `GhostHist.v`, `GhostTrace.v`, `GhostCons.v`: the Map class over the deep embedding with the solver as a parameter, simulated by concrete finite maps, invariants over runs. Counterexample for shared layers.
* **C21** A true forall really covers every item. `GhostMap.v`, `GhostSpec.v`, `GhostFacts.v`, `GhostSim.v`, `GhostHist.v`, `GhostTrace.v`, `GhostCons.v`: the Map class over the deep embedding with the solver as a parameter, simulated by concrete finite maps, invariants over runs. Counterexample for old versions.
* **C22** Independent foralls do not constrain each other. `GhostHist.v`: counterexample; two foralls refuted by keys that were read (or by the generic one) may both be false in one execution.
* **C23** Reading an old version of a map is unaffected by later writes. `GhostOld.v`: counterexample; a relation between the answers of the first version before and after any operations, for keys read before the first write.
* **C24** Frozen presence tests use the frozen version. `GhostReal.v`, `GhostUse.v`, `GhostMerge.v`, `GhostMergeSim.v` (whole-state merging, as a simulation of each merged execution), `GhostDemo.v`: counterexample executions of the model (`_refuted`) and the strongest true part (`_partial`).
* **C25** Testing that a map contains a given pair does not rule out executions. `GhostOld.v`: counterexample; keys whose lookup creates no item.
* **C26** Merged ghost maps describe each merged state's map. `GhostReal.v`, `GhostUse.v`, `GhostMerge.v`, `GhostMergeSim.v` (whole-state merging, as a simulation of each merged execution), `GhostDemo.v`: counterexample executions of the model (`_refuted`) and the strongest true part (`_partial`).
* **C27** Layer flattening does not change the map. `GhostFold.v`: an invariant of layers whose items have distinct literal keys, kept by every operation on maps including nested lookups; reads of constant keys follow. Reads of other keys are refuted (stale cache, lost executions).
* **C28** Arrays contain exactly the indices below their length. `GhostPres.v`: an invariant kept by every operation: what the creation invariant says about presence holds of every known item, cached or not, of every version, and the length keeps its value. `GhostArr.v`: the same over the runs of C17 with more in the conclusion.
* **C29** Empty maps contain nothing. `GhostPres.v`: the same invariant with 'present only if among the keys written'; and that an unwritten map keeps its literal length 0.
* **C30** A map never reports more distinct present keys than its length. `GhostArr.v`: the constraint added by every read bounds the number of provably distinct present keys by the length; the counterexample key is provably the generic unknown key (`GhostDemo.v`).
* **C31** Reading back what was written to the heap. `Heap.v`, `HeapOwn.v`: bit-level model of heap elements (Extract/Concat), fractions as 8-bit values, sequences of operations.
* **C32** Heap writes leave neighbouring bytes and elements alone. `Heap.v`, `HeapOwn.v`: bit-level model of heap elements (Extract/Concat), fractions as 8-bit values, sequences of operations.
* **C33** Byte-swapped heap accesses round-trip. `Heap.v`, `HeapOwn.v`: bit-level model of heap elements (Extract/Concat), fractions as 8-bit values, sequences of operations.
* **C34** Out-of-bounds heap accesses are rejected. `Heap.v`, `HeapOwn.v`: bit-level model of heap elements (Extract/Concat), fractions as 8-bit values, sequences of operations.
* **C35** Ownership fractions stay within 0..100. `Heap.v`, `HeapOwn.v`: bit-level model of heap elements (Extract/Concat), fractions as 8-bit values, sequences of operations.
* **C36** Map insertion and removal conserve key ownership. `Heap.v`, `HeapOwn.v`: bit-level model of heap elements (Extract/Concat), fractions as 8-bit values, sequences of operations.
* **C37** Index pool borrow returns a free or expired index, or fails only when every index is young. `IndexPool.v`: the C loops as structural recursion over the timestamp array; refinement to a finite map contract, histories by induction.
* **C38** Index pool refresh, used and return follow their contracts through any history. `IndexPool.v`: the C loops as structural recursion over the timestamp array; refinement to a finite map contract, histories by induction.
* **C39** The hash map is a finite map. `HashMap.v`: open addressing table with chain counters as in map.c; invariant (chain counter = number of keys whose probe passes the slot), refinement to a finite map for every hash function.
* **C40** The hash map always finds room below its declared capacity. `HashMap.v`: open addressing table with chain counters as in map.c; invariant (chain counter = number of keys whose probe passes the slot), refinement to a finite map for every hash function.
* **C41** Table capacity is the least power of two not below the request. `HashMap.v`: open addressing table with chain counters as in map.c; invariant (chain counter = number of keys whose probe passes the slot), refinement to a finite map for every hash function.
* **C42** Consistent-hashing rows are permutations of the backends. `Cht.v`: the alloc loops; bijectivity argument on the stride; lookup as first match.
* **C43** Consistent-hashing lookup finds an available backend if there is one. `Cht.v`: lookup as first match in the row; complete for prime heights; counterexample for height 8.
* **C44** The memory allocator hands out disjoint, aligned, in-bounds, zeroed blocks. `MemAlloc.v`: bump allocator with wrap-around arithmetic; history invariant.
* **C45** Configuration reads respect the declared range. `Config.v`: config table lookup and range checks.
* **C46** Allocation preconditions reject overflowing sizes. `Contracts.v`, `ContractsMore.v`: the boolean constraint each contract adds, as a predicate over concrete values with 64-bit wrap-around.
* **C47** The memory allocation precondition is exact. `Contracts.v`, `ContractsMore.v`: the boolean constraint each contract adds, as a predicate over concrete values with 64-bit wrap-around.
* **C48** The index-pool contract admits every behaviour of the C implementation. `Contracts.v`, `ContractsMore.v`: the boolean constraint each contract adds, as a predicate over concrete values with 64-bit wrap-around.
* **C49** The longest-prefix-match contract admits every real lookup result. `Contracts.v`, `ContractsMore.v`: the boolean constraint each contract adds, as a predicate over concrete values with 64-bit wrap-around.
* **C50** The prefix-match predicate is bitwise prefix equality. `Contracts.v`, `ContractsMore.v`: the boolean constraint each contract adds, as a predicate over concrete values with 64-bit wrap-around.
* **C51** The consistent-hashing contract admits every real lookup result. `Contracts.v`, `ContractsMore.v`: the boolean constraint each contract adds, as a predicate over concrete values with 64-bit wrap-around.
* **C52** A successful verification covers every feasible path of the specification. `Symbex.v`, `SymbexFacts.v`, `SymbexSearch.v`: specifications as interaction trees (branch on symbolic condition / choose / fail / return); the depth-first search with its recorded branch and choice prefixes modelled literally with fuel; soundness, completeness and partition.
* **C53** The explored specification paths are exactly the feasible ones, each once. `Symbex.v`, `SymbexFacts.v`, `SymbexSearch.v`: specifications as interaction trees (branch on symbolic condition / choose / fail / return); the depth-first search with its recorded branch and choice prefixes modelled literally with fuel; soundness, completeness and partition.
* **C54** Choices are explored until one works. `Symbex.v`, `SymbexFacts.v`, `SymbexSearch.v`: specifications as interaction trees (branch on symbolic condition / choose / fail / return); the depth-first search with its recorded branch and choice prefixes modelled literally with fuel; soundness, completeness and partition.
* **C55** A success with choices is backed by one consistent choice vector. `Symbex.v`, `SymbexFacts.v`, `SymbexSearch.v`: specifications as interaction trees (branch on symbolic condition / choose / fail / return); the depth-first search with its recorded branch and choice prefixes modelled literally with fuel; soundness, completeness and partition.
* **C56** Specification arithmetic means what the specification author wrote. `SpecValues.v`: operators with their width adjustment, nested records over bit-vectors, bit offsets of header fields against the standards' offsets, existence.
* **C57** Structured specification values round-trip. `SpecValues.v`: operators with their width adjustment, nested records over bit-vectors, bit offsets of header fields against the standards' offsets, existence.
* **C58** Packet header fields read the right bits. `SpecValues.v`: operators with their width adjustment, nested records over bit-vectors, bit offsets of header fields against the standards' offsets, existence.
* **C59** Existence in specifications is existence. `SpecValues.v`: operators with their width adjustment, nested records over bit-vectors, bit offsets of header fields against the standards' offsets, existence.
* **C60** Expiring sets in specifications behave as timed sets. `ExpSet.v`: the helper over the maps read from the C structures, against a timed set.
* **C61** The firewall only lets external traffic in for flows opened from inside. `Table.v`, `Firewall.v`: the firewall on the C hash map, index pool and key array, refined to a timed set of flows; and, for any clock, an invariant on histories.
* **C62** NAT translates replies back to the internal flow that opened them. `NatNF.v`, `Packet.v`: the NAT on packet bytes; who owns a port in a history.
* **C63** Flow tables stay bijective and bounded. `Table.v`, `Firewall.v`, `NatNF.v`: invariant of the flow table through histories.
* **C64** The policer never lets a source exceed its allowance. `Policer.v`: credit invariant; counterexamples for small bursts, rounding, overflow and the unit of the rate.
* **C65** The bridge never sends a frame back to where it came from and forwards to learned ports. `Bridge.v`, `TimedSet.v`: learned addresses as a timed set, the device an address was last seen on; counterexamples for expired addresses and update frames.
* **C66** Header rewriting keeps checksums valid. `Packet.v`: incremental update against RFC 1071 sums; counterexamples for the carry and for the place of the checksum.
* **C67** The load balancer keeps a live flow on its backend. `Maglev.v`: counterexample, and what holds when backend 0 is down.
* **C68** PCI configuration addresses are decoded and combined correctly. `Pci.v`: the two-port protocol as a state machine over any sequence of port instructions, address decoding at bit level.
* **C69** Device register initial values match the data sheet description. `Regs.v`, `RegFacts.v`: register descriptions and values bit by bit; the device's tables are in `RegTable.v`.
* **C70** Changing one register field changes nothing else. `Regs.v`, `RegFacts.v`: register descriptions and values bit by bit; the device's tables are in `RegTable.v`.
* **C71** Writes to read-only or inaccessible register fields are rejected. `Regs.v`, `RegFacts.v`, `RegTable.v`: the access check, for the device's tables; counterexample for other descriptions.
* **C72** Register lookup maps an address to the register instance that occupies it. `RegLookup.v`: layout of the instances, checked once for the device's table; counterexamples for addresses inside registers.
* **C73** Invariant widening is monotone and covers the new items. `Infer.v`: find_constraints, flatten_items and the length invariants as functions over ghost maps; `InferFacts.v`: widening only adds alternatives, so it is monotone and covers the violating item.
* **C74** A reported fixpoint is inductive. `Infer.v`: infer_invariants with arbitrary candidate guesses. Inductiveness of own-map invariants and length bounds proved from the fixpoint answer; cross-map invariants and presence of array items refuted by running the search (`Bt.v` is the solver of the examples).
* **C75** Fixpoint search returns only states from a converged iteration. `Infer.v`: find_fixedpoint_states as a fuelled iteration over an arbitrary handler; it returns only a converged iteration and every start state is explored.
* **C76** Object metadata is found by identity and survives merges. `Misc.v`: the dict of dicts; lookups refined to the history of attachments.
* **C77** A packet's processing sees one time. `Misc.v`: the clock over any interleaving with constraints and symbols; a second reading aborts, so a state has one time.
* **C78** Statistics durations add up. `Misc.v`: the recorder as a state machine; accepted histories are exactly consecutive intervals.
* **C79** Reading a program string returns its characters up to the terminator. `Misc.v`: the reading loop over an arbitrary memory of byte expressions, both directions.
* **C80** Special memory objects (rings, agents) round-trip. `Misc.v`: reads and writes at bit level; big-endian partial accesses refuted (no little-endian program access takes that path).
* **C81** Big-endian stores put bytes at their addresses. `Heap.v`: whole elements, `_refuted` for parts of elements and ranges spanning elements.
* **C82** The memory-allocation contract admits every real allocation. `ContractsMore.v`: the address constraints against the blocks of `MemAlloc.v`.
* **C83** A choice returns one of the candidates offered. `SymbexSearch.v`: each choice list is an end of the list offered at that position; counterexample when paths offer different lists.
* **C84** The firewall satisfies its published specification. `ExpSet.v`: the specification as a checker over the set before and after.
* **C85** The NAT satisfies its published specification. `NatSpec.v`: as C84.
* **C86** Both drivers deliver packets to the devices the network function names. `Bridge.v`: the index mapping of the TinyNF driver and the loops of both.
* **C87** The bridge's spanning tree follows the smallest root and keeps blocked ports quiet. `Bridge.v`: the update step; `Stp.v`: the root, cost, port and blocked ports as functions of the history of frames, proved by induction on histories; counterexamples for BPDUs that arrive when an update is due, for learned addresses behind blocked ports, for a blocked port to the root, and for costs that wrap around.
* **C88** The load balancer sends traffic to live backends only, and drops it only if there is none. `Maglev.v` with `Cht.v`: last sign of life in the history.
* **C89** The load balancer satisfies its published specification. `Maglev.v`: as C84; counterexample when the backends have expired.
* **C90** A register write the tool accepts is allowed by the data sheet's actions. `RegActions.v`: the meaning of conditions and actions on plain numbers, against the solver queries of the check.
* **C91** Fields that ignore writes keep their value. `Regs.v`: counterexample on the device's tables. `RegStore.v`: a driver that writes the fields back as it found them keeps them.
* **C92** The order of device start-up and shut-down is enforced. `RegActions.v` with the device's tables: from C90 and the listed actions; counterexamples.
* **C93** An accepted write has all the effects the device specification lists for it. `RegActions.v`: postconditions field by field; counterexample for a write that matches two actions.
* **C94** Inferred invariants speak only of the item and of what the starting states share. `InferFacts.v`: symbols of the terms find_constraints returns, by induction over replacement; counterexample for compound keys.
* **C95** An accepted register write takes effect. `RegStore.v`: what a write stores and leaves alone, for every state reachable by reads and writes.
* **C96** A network function is verified with every packet the network can deliver. `NetEnv.v`: the allocation on expressions, its fields against the heap model; an assignment for each packet; counterexample for the DPDK clock.
* **C97** What a specification sees as transmitted is what the drivers send. `NetEnv.v`: the recorded transmissions and the specification's view on expressions, both drivers on numbers, a relation kept by each action; counterexamples for each restriction.
* **C98** Configuration lookups are verified for every configuration, and only for configurations. `EnvConfig.v`: paths of programs with lookups and branches; induction over paths and over programs; counterexample for presence.
* **C99** The clock counts nanoseconds, goes forward, and never reads TIME_MAX. `Clock.v`: the initialisations and the conversion on numbers with 64-bit wrap-around; counterexamples for DPDK.
* **C100** Sleeping lasts at least the time asked for, and ends. `Clock.v`: what each environment asks the system for; the busy-wait over a list of readings; counterexamples.
* **C101** The driver hands each packet to the network function once, in order, and sends exactly what it asked for. `TinyNF.v`: tn_run_peragent as a small-step machine whose steps are the driver's accesses to memory shared with the cards, interleaved in any order with receptions, transmissions and head write-backs as ixgbe.c quotes the data sheet. An invariant relates ring positions, descriptors and buffers to the history (`TinyNFFacts.v`); order and exactly-once follow, progress by a measure. The handler built from tinynf/main.c's transmit functions (`NetEnv.v`) is an instance. Proved.
* **C102** No packet overwrites another in the driver's buffers. Same machine and invariant: the receive tail stays behind every transmit head. Proved.
* **C103** The driver does not stop receiving. Same machine. Refuted: if an output is 192 or more packets behind when its head is read, the receive tail is not moved again and the driver waits forever. Proved when every head read is fewer than 192 packets behind.
* **C104** Agents do not share queues. The formula for the queue index, injective in the agent; in range exactly for up to 11 devices. `Props_IxgbeQueues.v`: the registers that the set-up of agents in `Ixgbe.v` leaves in each agent, for every answer of the cards.
* **C105** The DHCP server's addresses are usable and distinct. `Dhcp.v`: nf_init with its 32-bit counter and size_t arithmetic; the loop is a prefix of the filtered range. Proved for networks of 8 or more addresses; refuted below (the capacity wraps around and left-over entries are 0.0.0.0).
* **C106** The DHCP server gives an address to one client at a time. `Dhcp.v`: both lease functions over the table of `Table.v`; invariant: whoever was given an address still has its index, with a later time stamp, or the lease is over. Proved for networks of 8 or more addresses; refuted below.
* **C107** A DHCP lease lasts as long as the client is told. Refuted on the same model: the announced seconds are the pool's nanoseconds, and the bytes are in the host's order.
* **C108** The DHCP server answers a client as long as it has addresses. The packet handler has its body commented out and its test for DHCP compares port numbers and cookie in the wrong order: refuted for every packet. For the lease function: proved, with the holders named from the history.
* **C109** The DHCP server's replies are well formed and stay in the message. The response structure is 15 bytes longer than the request's: overrun refuted; a refusal keeps the request's operation code: refuted. Proved otherwise against a parser of options.
* **C110** A DHCP client keeps its address. Same invariant as C106, with no condition on the network. Proved.
* **C111** The router satisfies its published specification. `Router.v`: router.c function by function over an abstract lookup with the result relation of C49, the specification transcribed with the tool's meaning of its fields and operators. Refuted for two routes of one prefix with different devices (no answer satisfies it); proved otherwise.
* **C112** The router validates packets as RFC 1812 says. Same model, against RFC 1812's conditions on the bytes in network order. Refuted: checksums are not checked, total lengths are compared with swapped bytes (both ways wrong), the time to live is not decremented. The other checks: proved.
* **C113** The router sends a packet to the longest matching network. Same model; the lookup key is the destination's bytes read little-endian, as the lookup's contract has it. Refuted for 10.0.0.0/8 in both byte orders; proved for tables of /32 and /0 routes.
* **C114** The router uses its environment as it must. Refuted twice (device 7 of 3; a repeated command). Proved: a packet only leaves on a device a command named.
* **C115** The policer in Rust is the policer in C. `SmallNF.v`: both starts from the configuration table of C45, the Rust handler statement by statement over the same maps and pools, its fields at the offsets repr(C) gives. Verdicts proved equal by induction over the packets; refuted where no flows are configured, and for the alignment of the destination address.
* **C116** The no-op function forwards every packet to the other side. `SmallNF.v`, with the drivers of `NetEnv.v` for what goes out.
* **C117** The policers satisfy their published specification. The specification's two conditions over every state a history reaches, and the drivers for what goes out.
* **C118** The bridge satisfies its published specification. The specification transcribed over the devices the frame really goes to. Proved while no device is blocked; refuted for a blocked device, which the specification's count forgets (the tool accepts it: C97).
* **C119** The driver's register helpers change only the field they are given. `Ixgbe.v`: the driver as programs over accesses (read, write, sleep, map, physical address) whose reads return anything; masks and helpers on 32-bit numbers, proved bit by bit. Refuted for a value wider than the field.
* **C120** The driver writes to the card only what the data sheet allows. `IxgbeSpec.v` says what may be written, from the tool's own register and action tables (`RegTable.v`) and what the driver has read or written so far; `IxgbeFacts.v` has a logic for programs whose every access is allowed, sound for all executions; `IxgbeInit.v` and `IxgbeRun.v` apply it to each stage.
* **C121** The driver accesses only the memory it maps. The same logic, with the bounds of the mapping.
* **C122** A timeout is reported only if the condition lasts for the timeout. `Ixgbe.v`: execution against a card that is a function of time. Proved: the times of the ten tests and the end. Refuted: the condition is not tested again at the end of the last tenth.
* **C123** Start-up ends. Bounds on accesses and sleeps composed over the program, for all executions.
* **C124** A card is started in the order and with the configuration the data sheet prescribes. The same logic as C120, with the order as a condition on writes. The waits: every write that resets the card, at any point of any execution, with the sleeps that follow it (`Props_IxgbeTime.v`). The configuration: `IxgbeCard.v` runs programs against registers that keep what is written, symbolically, as a list of field updates; a field of the final state is that of the last update of it. The table of the configuration is separate.
* **C125** Promiscuous mode accepts all packets, and only changes the filter while reception is disabled. `IxgbeCard.v`, and the logic of C120 for the order.
* **C126** Ethernet addresses are those of the cards, and destinations are distinct. `Ixgbe.v`, get_mac and the bytes main.c takes. Proved: the card's address is right. Refuted: 48 bits (the valid bit is included) and distinct destinations (the first 1024 are equal).
* **C127** Configuration reads and the mapped address are those of the card. `Ixgbe.v`: the address port as PCI defines it. Proved for offsets that are multiples of four; refuted for the device status, whose offset is not.
* **C128** Byte-order conversions reverse bytes. `Ixgbe.v`: the macros on numbers. 16 bits proved when stored in 16 bits; the others refuted.
* **C129** Set-up overwrites the structures it is given. Refuted: flags and tail are not overwritten. Proved for structures filled with zeros.
* **C130** A queue set up by the driver has the addresses, sizes and options of the agent's ring. `IxgbeCard.v`: the same symbolic execution, with the queue and physical addresses as variables.
* **C131** A program accepted under the map contract gets the contract's results from the real map. `MapLink.v`: a program runs on the contract with the ownership of keys (HeapOwn.v); its calls, with the memory at that time, run on the C map (HashMap.v). Invariant: the contract's two maps and the association list of C39 are the same, and keys in a map are not written since a quarter of them was taken. Refuted for keys of more than one heap element, as for C36.
* **C132** The network functions use the data structures only as their contracts require, and what the contracts promise holds of the real structures. `NfProg.v`: programs over the structures (a map, arrays, pools, the backends' lookup); `ok` is a weakest precondition over the contracts of map.h and index_pool.h, with every allowed answer of a pool; `run_c` runs the same program on `HashMap.v` and `IndexPool.v`. `NfTable.v`: the five functions as programs. `NfSafe.v`: invariant: the map's keys are the array's keys at the indexes in use, three quarters owned. `NfLink.v`: on the C structures the programs are the functions of C60 to C67.
* **C133** Comparing, hashing and copying memory do what their contracts say. `OsMem.v`: memory as a function from addresses to bytes, functions return also what they read and write. The hash is a fold over the list of bytes, by induction on its words.
* **C134** Memory given to a network card is contiguous in physical memory. `OsMem.v`: virt_to_phys with the page size, the opening of the file and the pagemap as inputs. The arena is one page of a gigabyte: its small pages have consecutive frames (premise on the pagemap).
* **C135** Allocation over DPDK keeps the allocator's promises. `OsMem.v`: the request to rte_calloc, with DPDK's rounding to a power of two; rte_calloc returns NULL or an address with the alignment. The two promises that fail are refuted.
* **C136** The program gets exactly the configured devices. `OsMem.v`: enumeration on the allocator of `MemAlloc.v` from any memory, with an invariant over histories: blocks lie below the used length.
* **C137** Bare-metal start-up halts, resets, or starts the program on a suitable processor. `Boot.v`: the instructions of boot.asm on a machine with the part of the x86 manuals that they need (flags, CPUID, control registers, page tables, segment descriptors); `BootRun.v` runs them symbolically, phase by phase, for every processor, layout and state. FSGSBASE is refuted: leaf 7 is read without checking that it exists.
* **C138** The bare-metal program starts in the promised state. As C137; page walks are computed for every address below 4 GiB (`BootFacts.v`). Refuted: the descriptor has no read permission, and the interrupt table is whatever the boot loader left.
* **C139** SSE and AVX are enabled when the bare-metal program starts. As C137; the bits of CR0, CR4 and XCR0 that enable the instructions. Refuted if CR0.TS was set.
* **C140** A success is about the program and the specification that were given. `Cli.v`: the files with the program and the stored results, a run with its flags, runs killed before, during or after writing, over any history. Executing, verifying and pickling are parameters; that reading gives what was written, and fails on a strict prefix, are premises. Refuted with `--use-cached-symbex`: stored results may be of an older program or of the other mode.
* **C141** Symbols that verification introduces are new. `Names.v`: claripy's names (name, counter, size) and the counter that verification sets to 1000000. Names determine counters because decimal numbers have no underscore. Refuted for executions with more than 1000000 symbols.
* **C142** Full-stack verification starts from every card on every start-up path. `FullRun.v`: exploration of an execution tree by run_state, with Python's module-level variables; the states and creators it collects. Refuted: engine.py appends halted states to a variable of its own module that does not exist, so start-up code that may halt is rejected although it is allowed.
* **C143** Full-stack verification covers every set of network cards. `FullRun.v`: the constraints of the enumeration contract over addresses of eight bytes, and get_device on the list of a state's executions. Refuted: the number of cards is fixed to two; executions that use an address that was not enumerated are left out.
* **C144** Every packet of every history is among those that were explored. `Relax.v` (with `GhostExt.v`: what exploring a packet keeps): contents that fit a relaxed starting state; relaxing keeps the contents start-up left (each step), and a fixpoint keeps the contents each packet leaves, by induction over packets, from the simulation of C16 and the inference of C73 and C74. Refuted for what start-up writes and for bounds on lengths, which are not checked of the starting state.
* **C145** A program can be verified together with its driver. `FullRun.v`: the table of cards over any sequence of accesses, and receiving a packet. Refuted for every program: the packet's metadata is created with five values for four fields, and creating a card's model asserts False. Start-up without assertions is proved to be served, by induction over the accesses.
* **C146** Accesses to the same address see the same memory. `ObjMem.v`: where a load or store goes, on top of the pointer resolution of C10. Proved for objects that do not overlap and pointers resolved rightly; refuted for scaled indices, and for objects at fixed addresses accessed with constant addresses.
* **C147** A specification's maps and cells stand for the program's structures. `SpecMaps.v`: the selection of candidates, on top of the search of C52-C55, with the names the tool gives its maps. Proved: room, order, distinctness, one object on all paths (maps), one element (cells, on the path that chooses). Refuted: the excluded names are not the names in use, so the packet and the fractions are candidates, and a specification of the program's cell can be verified of the packet; a cell has one element only on the path that chose it.
* **C148** The shipped specifications are judged by the structures they are meant to speak of. `Shipped.v`: the allocations of the shipped functions in order, with the sizes of the C types, and the declarations of their specifications, over `SpecMaps.v` and `Symbex.v`. Proved: with specifications that fail only by assertions the first choice decides; for each shipped function the first choice is the structures meant; so the verdict is exactly that of the specification on these (success if and only if it holds). Not modelled: the bodies of the specifications here (C84-C89, C111, C118), specifications that add constraints or raise exceptions of other classes.
* **C149** Comparing the transmitted packet's contents with the received one's accepts exactly the executions that changed no byte. `DataEq.v`: the comparison as `forall` over the newest version of the packet's map with a lookup in the oldest version, over the map model of `GhostMap.v` and the runs of `GhostFold.v`. Proved: after writes at constant offsets, wherever the comparison is true every byte present now was received with the same value, and the lengths agree; if nothing was written the comparison is true and assumes nothing. Refuted: after two bytes are changed and put back, in an order that shares layers, it is false in all executions. Missing: writes at computed offsets.
* **C150** Bridges connected to each other agree on one root and leave no loop: a broadcast reaches every port and dies out. `BridgeNet.v`: bridges (`Bridge.v`) over either driver (`NetEnv.v`), cables as a partial function from ports to ports, a bag of frames in flight; events are a host's frame, the arrival of any frame in flight at any later time, and a loss. Proved: what is on the wire for every frame; with no loop (a rank that falls along every way) the number of arrivals is bounded after hosts stop, by induction on executions; a group frame leaves on every port that a way without turning back leads to, in executions without losses or due updates. Refuted: updates are flooded with the driver's endpoint address as destination (C126), which no bridge takes for the spanning tree's, so that no root ever changes and no port is ever blocked, in all executions whose hosts do not speak the protocol themselves; on every loop a group frame circulates for ever.
* **C151** The contracts in the structures' headers are what the implementations do, and the lemmas their proofs call are true. `Headers.v`: the fixpoints of ghost_map.gh on association lists, the ensures clauses of index_pool.h and the requires and ensures clauses of map.h transcribed as relations on ghost maps; that of cht.h for a lookup. Histories of the modelled implementations (`IndexPool.v`, `HashMap.v`) are proved to satisfy them by induction on the history. Every lemma of ghost_map.gh, arith.gh, modulo.gh and mod-pow2.gh is restated and proved in Z with C's quotient and remainder. Not modelled: the fractions of permissions, the lemmas about lists and bits in the other proof files.
* **C152** The policer forwards exactly the packets that its exact specification forwards. `PolicerExact.v`: spec-exact.py transcribed as a machine whose state is the set of addresses with their last uses and a bucket per address, over unbounded numbers. As a script it cannot run (it names an `Array`, a `transmit` and a `burst` that do not exist), so its structures are given the meaning of their names. A simulation between the C program's states and the machine's, by induction on the history, gives equal verdicts unless a packet as long as the burst is for an expired address; two refutations show what happens then.
* **C153** The policer gives each address a budget of its own. By C152 on both executions it is enough to compare two runs of the exact specification: states that agree on one address stay in agreement whatever comes for the others, when there is room. Refuted for packets as long as the burst (an eviction turns an expired entry into a new one) and when there is no room.
* **C154** The firewall's decisions about one flow depend on that flow's packets only. `FirewallApart.v`: by C61 it is enough to compare runs of the firewall's set of flows. States that agree on whether a flow is alive, now and later, stay in agreement whatever comes for other flows, since a table with no more flows than room never refuses one. The second half tracks, by induction on the history, that a flow is alive exactly when a forwarded packet of it is young enough. A counterexample shows that the room is needed.
* **C155** The NAT keeps a flow's port, lets its replies in, and refuses flows only when all ports are in use. `NatServe.v`: on the NAT's histories of C62. An invariant, by induction on the history, says that every port given is one of the table's, and that the time of each entry is that of a packet from or to its port; with the invariants of C62 it follows that the owner of a port is found at the port's index. Refuted: packets of strangers, which are dropped, keep ports in use; and replies arrive with another source address, since the checksum is updated in the wrong place (C66).
* **C156** With room for all stations, the bridge sends a frame only where its destination is. `BridgeRoom.v`: by C65 the destination is decided by the set of learned addresses of limited capacity; by induction on the history, with no more stations than the capacity, that set has exactly the addresses heard of within the expiration time. A counterexample shows that the room is needed; what happens to expired addresses is in C65.
* **C157** The policer drops nothing of an address that keeps to its budget. `PolicerExact.v`: by C153 the other addresses can be left out, and by C152 the exact specification run instead. By induction on the history, the size of the bucket is at least the burst and what has come in since some earlier packet, less what was sent from it on; with the bound on that interval the next packet passes. C157_bound_tight: with as many bytes as the bound a packet is dropped.
* **C158** The load balancer moves a flow only from a backend that went down or to one that came up. `MaglevMoves.v`: a packet goes to the first live backend of its flow's row, by C43, except when it goes to backend 0 because of C67's bug; two firsts that are each alive the other time are the same. Counterexample when backend 0 is alive both times.
* **C159** The load balancer's decisions about a flow do not depend on other flows' packets. `MaglevMoves.v`: the last signs of life, and so the sets of live backends, are the same; then C158 and C88. Counterexample when backend 0 is alive: other flows decide whether a flow is recorded, and a recorded flow goes to backend 0.
* **C160** The policer drops a packet only if its address has used up its budget. `PolicerExact.v`: by C153 and C152 as C157. Invariant: the bucket has at least the burst and what has come in since some packet that went out, less what has gone out since.

## Trusted base

* Coq 8.16.1's kernel (and its bytecode machine, used by `vm_compute` in examples, counterexamples and checks of the device tables;
  `coqchk` re-checks everything without it).
* `Print Assumptions` stands below every property theorem; each prints "Closed under the global context". No axiom is used, neither the
  standard library's nor our own.
* `coqchk` lists seven axioms of the standard library's `Coq.ssr.ssrunder` (`Under_rel`, `Over_rel` and their companions: opaque wrappers of the
  `under` tactic) in the loaded context, because the library's files contain them. No theorem depends on them.
* The correspondence between `/repo` and the definitions of the model, which is by reading. Each definition cites the lines it models.
* claripy's documented semantics of bit-vector expressions (`Expr.v`), and that the solver answers satisfiability questions correctly. The latter is
  a premise (`solver_ok`) of the theorems that need it, not an axiom.

## What is modelled

| code | model |
|---|---|
| tool/kalm/solver.py, utils.py (get_if_constant, get_exact_match, can/definitely, fork, structural_eq, structurally_match, add_constraints, base_index_offset, simplification) | `Solver.v`, `Fork.v`, `Structural.v`, `Simplify.v`, `MultAdd.v`, `BaseIndex.v` |
| tool/kalm/merging.py, plugins' merge, executor and exploration order | `KMerge.v`, `Explore.v` |
| tool/klint/ghostmaps.py: Map, its operations, forall, length, layers, merging | `GhostMap.v` and the other `Ghost*.v` |
| tool/klint/ghostmaps.py: invariant inference; klint/executor.py find_fixedpoint_states | `Infer.v`, `InferFacts.v`, `GhostExt.v`, `Relax.v` (`Bt.v`: a solver for the examples) |
| kalm/plugins/metadata.py, kalm/clock.py, klint/statistics.py, utils.read_str, verif.py's special memory | `Misc.v` |
| tool/klint/heap memory and its ownership fractions | `Heap.v`, `HeapOwn.v`, `MapLink.v` |
| tool/klint/externals: structs (map, index pool, cht, lpm), allocation, clock, network, configuration contracts | `Contracts.v`, `ContractsMore.v` |
| tool/klint/verif: symbolic execution of specifications, values, headers, existence, expiring sets | `Symbex*.v`, `SpecValues.v`, `ExpSet.v` |
| tool/klint/fullstack: PCI ports, registers, actions, device writes, with the whole register and action tables | `Pci.v`, `Regs.v`, `RegTable.v` (generated from spec_reg.py and spec_act.py), `Reg*.v` |
| env/src/structs: index_pool.c, map.c, cht.c; memory allocator; configuration; network drivers' transmit paths | `IndexPool.v`, `HashMap.v`, `Cht.v`, `MemAlloc.v`, `Config.v`, `Bridge.v` |
| tool/klint/externals/net, os/config.py, the specification's packets, devices and configuration; tinynf/main.c and dpdk/main.c; clocks and sleeping | `NetEnv.v`, `EnvConfig.v`, `Clock.v` |
| env/include/os/memory.h, env/src/os: linux/memory.c (physical addresses), dpdk/memory.c, pci.c | `OsMem.v` |
| env/src/os/metal/boot.asm | `Boot.v`, `BootFacts.v`, `BootRun.v` |
| tool/klint/\_\_main\_\_.py, tool/klint/verif/persistence.py: storing and loading | `Cli.v` |
| tool/kalm/memory/objects.py | `ObjMem.v` |
| tool/klint/verif/spec_prefix.py 95-190 (Map, Cell) | `SpecMaps.v` |
| allocations of the shipped functions (nf/*/*.h, *.c) and declarations of their specifications | `Shipped.v` |
| comparison of packet contents (tool/klint/verif/spec_prefix.py 308-316, 383-398) | `DataEq.v` |
| networks of bridges (nf/bridge/*.[ch] over env/src/net/{tinynf,dpdk}/main.c) | `BridgeNet.v` |
| contracts in env/include/structs/{map,index_pool}.h, lemmas of env/include/proof/{ghost_map,arith,modulo,mod-pow2}.gh | `Headers.v` |
| the spanning tree over histories (nf/bridge/spanning_tree.h) | `Stp.v` |
| nf/policer/spec-exact.py | `PolicerExact.v` (names it leaves undefined read as what they say) |
| names of symbols (tool/klint/verif/executor.py 59, claripy) | `Names.v` |
| tool/klint/executor.py: execute\_nf; tool/kalm/executor.py: run\_state; tool/kalm/engine.py: halting; tool/klint/externals/os/pci.py; tool/klint/fullstack/device.py: creating cards, receiving | `FullRun.v` |
| env/src/net/tinynf/ixgbe.c: the packet loop, concurrent with the cards; agents' queues | `TinyNF.v`, `TinyNFFacts.v`, `TinyNFWire.v` |
| env/src/net/tinynf/ixgbe.c: register helpers, start-up of cards, set-up of agents; env/include/os/pci.h; env/include/arch/endian.h | `Ixgbe.v`, `IxgbeFacts.v`, `IxgbeSpec.v`, `IxgbeInit.v`, `IxgbeRun.v`, `IxgbeCard.v` |
| nf/dhcp_ipv4 | `Dhcp.v` |
| nf/router, with its specification | `Router.v` |
| nf/nop, nf/rust-policer, the policer's start, and the specifications of nop, the policers, the bridge and spec-small of the firewall | `SmallNF.v`, `Props_SmallNF.v` |
| nf: firewall, nat, policer, bridge, maglev and their specifications | `Table.v`, `Firewall.v`, `NatNF.v`, `NatSpec.v`, `Policer.v`, `TimedSet.v`, `Bridge.v`, `Maglev.v`, `Packet.v`; as users of the contracts `NfProg.v`, `NfTable.v`, `NfSafe.v`, `NfLink.v` |

Not modelled: angr and claripy themselves, SMT solving, the binary-level calling convention (the rest of `kalm/engine.py`, `kalm/externals`), dot-file output and the parsing of the command line,
the cards themselves (their answers are arbitrary, or registers that keep what is written), DPDK's own library and initialization, caches and memory ordering (the TinyNF loop is interleaved in program order), the Multiboot headers and linker script of `env/src/os/metal`, longest-prefix-match structures themselves (the repository has
none; any with the behaviour of lpm.h is allowed), performance, real time and hash quality (hash functions are arbitrary parameters).
