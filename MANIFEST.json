{
 "claims": [
  {
   "property": "C01",
   "status": "proved",
   "theorems": [
    "C01_merge_is_disjunction",
    "C01_merge_selected"
   ],
   "note": "Hash-consed identity of constraints is structural equality; the selector symbol is fresh."
  },
  {
   "property": "C02",
   "status": "proved",
   "theorems": [
    "C02_selector"
   ],
   "note": "math.ceil(math.log2(n)) is modelled exactly (floating point rounding of log2 for huge n is not)."
  },
  {
   "property": "C03",
   "status": "proved",
   "theorems": [
    "C03_definitely_true",
    "C03_definitely_false",
    "C03_can_be_true",
    "C03_can_be_false",
    "C03_constant",
    "C03_constant_bool"
   ],
   "note": "The SMT solver is any pair of functions meeting solver_ok; the brute-force solver bf is shown to meet it."
  },
  {
   "property": "C04",
   "status": "proved",
   "theorems": [
    "C04_fork_guarded",
    "C04_fork_fails_only_when_infeasible"
   ],
   "note": "Call-site teardown and path recording are not part of the model of the fork."
  },
  {
   "property": "C05",
   "status": "proved",
   "theorems": [
    "C05_match_sound",
    "C05_match_complete"
   ],
   "note": ""
  },
  {
   "property": "C06",
   "status": "proved",
   "theorems": [
    "C06_structural_eq",
    "C06_structural_diff"
   ],
   "note": "Python values are a datatype with the shapes structural_eq distinguishes; identity of hash-consed expressions is structural equality."
  },
  {
   "property": "C07",
   "status": "proved",
   "theorems": [
    "C07_decomposition_exact",
    "C07_grouped_decomposition_exact"
   ],
   "note": "For decompositions whose products claripy can build (sizes agree)."
  },
  {
   "property": "C08",
   "status": "partial",
   "theorems": [
    "C08_modulo_partial",
    "C08_modulo_pow2_partial",
    "C08_modulo_refuted"
   ],
   "note": "Proved when the divisor divides 2^width and when the weighted sum does not wrap; refuted in general ((x*6) mod 3 on 3 bits)."
  },
  {
   "property": "C09",
   "status": "partial",
   "theorems": [
    "C09_division_partial",
    "C09_division_refuted"
   ],
   "note": "Proved when every multiplier is the divisor and nothing wraps; refuted in general ((x*6)/3 becomes x)."
  },
  {
   "property": "C10",
   "status": "partial",
   "theorems": [
    "C10_resolution_partial",
    "C10_fixed_address_partial",
    "C10_fixed_address_refused",
    "C10_resolution_refuted",
    "C10_needs_cancelling_refuted"
   ],
   "note": "Proved when what remains after the offset is a sum of terms times exactly the element size; refuted for other multiples ((j*2)*size resolves to j), and for a claripy that does not cancel (x+c)-c. Arrays at fixed addresses: resolved pointers denote the accessed bytes, and only addresses with a constant in the first element are resolved."
  },
  {
   "property": "C11",
   "status": "proved",
   "theorems": [
    "C11_simplify_preserves"
   ],
   "note": "claripy's rewriting is a parameter that must preserve meaning (claripy_ok); recursion is fuelled with an explicit out-of-fuel result."
  },
  {
   "property": "C12",
   "status": "proved",
   "theorems": [
    "C12_partition",
    "C12_first_state_leads",
    "C12_same_callstack",
    "C12_same_return_value",
    "C12_accepted_by_representative"
   ],
   "note": "Mergeability with the representative is for klint's configuration, where exactly one plugin has a triage test."
  },
  {
   "property": "C13",
   "status": "proved",
   "theorems": [
    "C13_steps_cover",
    "C13_run_covers",
    "C13_constraint_merge_covers",
    "C13_lowest_first",
    "C13_step_goes_on"
   ],
   "note": "angr's step and the plugins' merge are parameters that must not lose executions; the merge of path constraints is shown to meet this."
  },
  {
   "property": "C14",
   "status": "proved",
   "theorems": [
    "C14_merged_value",
    "C14_merged_value_selector"
   ],
   "note": ""
  },
  {
   "property": "C15",
   "status": "proved",
   "theorems": [
    "C15_trace_survives_merge"
   ],
   "note": "Record identity is a parameter that must imply equality."
  },
  {
   "property": "C16",
   "status": "partial",
   "theorems": [
    "C16_history_described_partial",
    "C16_definitely_true_is_true_partial",
    "C16_refuting_key_written_refuted"
   ],
   "note": "Proved for histories without flattened layers or nested lookups, and executions in which a false forall is refuted by an accessed key or the one generic key. Beyond these it is false (C22, C27). Refuted for an execution in which the key that refutes a predicate is written later."
  },
  {
   "property": "C17",
   "status": "partial",
   "theorems": [
    "C17_read_your_writes_partial",
    "C17_read_your_removals_partial",
    "C17_flattening_refuted"
   ],
   "note": "Proved for every run and consistent assignment; refuted for constant keys sharing a layer. Runs: each write has its own layer (no flattening, see C27), keys are not provably the generic unknown key, no length overflow, current version only, no lookups nested in predicates."
  },
  {
   "property": "C18",
   "status": "partial",
   "theorems": [
    "C18_other_keys_undisturbed_partial",
    "C18_length_wraps_refuted"
   ],
   "note": "Proved for every run and consistent assignment; refuted when the length wraps to 0. Runs: each write has its own layer (no flattening, see C27), keys are not provably the generic unknown key, no length overflow, current version only, no lookups nested in predicates."
  },
  {
   "property": "C19",
   "status": "partial",
   "theorems": [
    "C19_length_partial",
    "C19_flattening_refuted"
   ],
   "note": "Proved for every run and consistent assignment; refuted for constant keys sharing a layer. Runs: each write has its own layer (no flattening, see C27), keys are not provably the generic unknown key, no length overflow, current version only, no lookups nested in predicates."
  },
  {
   "property": "C20",
   "status": "partial",
   "theorems": [
    "C20_equal_keys_agree_partial",
    "C20_flattening_refuted"
   ],
   "note": "Proved for every run and consistent assignment, values agree when present; refuted for constant keys sharing a layer. Runs: each write has its own layer (no flattening, see C27), keys are not provably the generic unknown key, no length overflow, current version only, no lookups nested in predicates."
  },
  {
   "property": "C21",
   "status": "partial",
   "theorems": [
    "C21_forall_covers_later_reads_partial",
    "C21_forall_covers_earlier_reads_partial",
    "C21_old_version_refuted"
   ],
   "note": "Proved for reads before and after; refuted for old versions. Runs: each write has its own layer (no flattening, see C27), keys are not provably the generic unknown key, no length overflow, current version only, no lookups nested in predicates."
  },
  {
   "property": "C22",
   "status": "partial",
   "theorems": [
    "C22_independent_foralls_refuted",
    "C22_known_items_partial"
   ],
   "note": "Proved for keys that were read, or the generic one. Refuted otherwise: both foralls are decided on one generic item."
  },
  {
   "property": "C23",
   "status": "partial",
   "theorems": [
    "C23_old_versions_refuted",
    "C23_first_version_partial"
   ],
   "note": "Proved for keys read before the first write, read again from the first version after any operations. Refuted otherwise: a read of the current version is stored in the oldest version and answers later reads of old versions."
  },
  {
   "property": "C24",
   "status": "partial",
   "theorems": [
    "C24_frozen_presence_refuted",
    "C24_frozen_lookup_partial"
   ],
   "note": "Refuted: a presence test without value hands None as version. Frozen value lookups are read at the frozen version."
  },
  {
   "property": "C25",
   "status": "partial",
   "theorems": [
    "C25_containment_test_refuted",
    "C25_known_key_partial"
   ],
   "note": "Proved for keys whose lookup creates no item. Refuted otherwise: the conditioned value becomes a path constraint."
  },
  {
   "property": "C26",
   "status": "partial",
   "theorems": [
    "C26_merged_map_partial",
    "C26_unread_keys_partial",
    "C26_no_execution_lost_partial",
    "C26_merged_states_partial",
    "C26_written_map_refuted"
   ],
   "note": "Proved for maps without writes since creation: keys a state had read answer as they did, other keys answer within that state's invariants, lengths agree. Merging whole states loses no execution of any of them, and a merged state answers reads as the selected one. Refuted for written maps: layers are merged with the conditions shifted by one."
  },
  {
   "property": "C27",
   "status": "partial",
   "theorems": [
    "C27_flattening_refuted",
    "C27_lost_executions_refuted",
    "C27_constant_write_then_read_partial",
    "C27_constant_remove_then_read_partial"
   ],
   "note": "Constant keys read with the constant itself are proved to keep the last write for every history. Refuted: the cache of transformed items survives flattening, so reads with other keys can see old values, and executions can be lost."
  },
  {
   "property": "C28",
   "status": "proved",
   "theorems": [
    "C28_array_bounds",
    "C28_array_bounds_in_runs",
    "C28_creation_invariants"
   ],
   "note": "Proved of every state and every sequence of operations: shared layers, old versions, nested lookups and generic keys included. The length must not mention the reserved names KEY/VALUE/PRESENT, and a Python int must fit the key size and size_t. C28_array_bounds_in_runs and C28_creation_invariants are further statements about the runs of C17."
  },
  {
   "property": "C29",
   "status": "proved",
   "theorems": [
    "C29_only_written_keys",
    "C29_forall_is_true",
    "C29_present_is_last_written",
    "C29_forall_in_runs"
   ],
   "note": "Proved of every state and every sequence of operations: shared layers, old versions, nested lookups and generic keys included. C29_present_is_last_written and C29_forall_in_runs are further statements about the runs of C17."
  },
  {
   "property": "C30",
   "status": "partial",
   "theorems": [
    "C30_not_overfull_partial",
    "C30_generic_key_refuted"
   ],
   "note": "Proved for every run: keys known present at the point the length is taken, from earlier reads and writes or later reads. Runs: each write has its own layer (no flattening, see C27), keys are not provably the generic unknown key, no length overflow, current version only, no lookups nested in predicates. Refuted for a key that is provably the generic unknown key, which is not counted."
  },
  {
   "property": "C31",
   "status": "proved",
   "theorems": [
    "C31_read_back",
    "C31_load_is_memory"
   ],
   "note": "Ghost maps are read as real maps (C17-C20); ranges may span elements; no wrap-around of the address space."
  },
  {
   "property": "C32",
   "status": "proved",
   "theorems": [
    "C32_store_only_its_range",
    "C32_other_elements"
   ],
   "note": "Memory as a row of bits; ranges may span elements."
  },
  {
   "property": "C33",
   "status": "proved",
   "theorems": [
    "C33_big_endian_read_back"
   ],
   "note": "Ranges inside an element. Ranges across elements are C81."
  },
  {
   "property": "C34",
   "status": "partial",
   "theorems": [
    "C34_loads_in_bounds",
    "C34_stores_in_bounds_partial",
    "C34_ephemeral_store_refuted"
   ],
   "note": "Loads, and stores where ownership is tracked. Refuted for stores to ephemeral allocations, which are not checked at all."
  },
  {
   "property": "C35",
   "status": "proved",
   "theorems": [
    "C35_fractions_stay_percentages",
    "C35_take_needs_ownership"
   ],
   "note": "Any accepted sequence of takes and gives."
  },
  {
   "property": "C36",
   "status": "partial",
   "theorems": [
    "C36_keys_are_owned_partial",
    "C36_set_then_remove_partial",
    "C36_long_keys_refuted"
   ],
   "note": "Histories over any number of maps with keys of one element. Refuted for keys longer than an element of their allocation: only the first element is taken."
  },
  {
   "property": "C37",
   "status": "proved",
   "theorems": [
    "C37_borrow"
   ],
   "note": "Times are below TIME_MAX, the reserved stamp; pool reached from index_pool_alloc by calls meeting the preconditions."
  },
  {
   "property": "C38",
   "status": "proved",
   "theorems": [
    "C38_history"
   ],
   "note": "Observable state is the finite map index -> time of the contract, specified independently in spec_step."
  },
  {
   "property": "C39",
   "status": "proved",
   "theorems": [
    "C39_finite_map"
   ],
   "note": "Keys are byte strings of the declared size at non-null addresses whose contents do not change while held (the contract). The hash function is arbitrary."
  },
  {
   "property": "C40",
   "status": "proved",
   "theorems": [
    "C40_room"
   ],
   "note": "Follows the same refinement: the last call stores its key."
  },
  {
   "property": "C41",
   "status": "proved",
   "theorems": [
    "C41_real_capacity"
   ],
   "note": "Requests up to 2^63; beyond, the doubling loop overflows (the allocator's precondition excludes it)."
  },
  {
   "property": "C42",
   "status": "partial",
   "theorems": [
    "C42_rows_partial",
    "C42_any_height_refuted"
   ],
   "note": "Proved for prime heights. Refuted for the heights the precondition actually allows: height 4 with 2 backends writes out of bounds."
  },
  {
   "property": "C43",
   "status": "partial",
   "theorems": [
    "C43_first_in_row",
    "C43_complete_partial",
    "C43_composite_height_refuted"
   ],
   "note": "The first-in-row part holds for every table; failure-means-none-available is proved for a prime height, which makes rows permutations, and refuted for height 8."
  },
  {
   "property": "C44",
   "status": "proved",
   "theorems": [
    "C44_allocator"
   ],
   "note": "Arena of any size at any non-null address not wrapping the address space; client writes inside their blocks are part of the history."
  },
  {
   "property": "C45",
   "status": "partial",
   "theorems": [
    "C45_getters_partial",
    "C45_range_partial",
    "C45_any_range_refuted"
   ],
   "note": "Typed getters proved. os_config_get with a general range compares with the minimum as signed numbers and is refuted; the device getter with zero devices too."
  },
  {
   "property": "C46",
   "status": "partial",
   "theorems": [
    "C46_overflow_refuted",
    "C46_legal_accepted_partial"
   ],
   "note": "Legal capacities are accepted. Refuted: the product wraps before the comparison, so nothing is ever rejected."
  },
  {
   "property": "C47",
   "status": "proved",
   "theorems": [
    "C47_memory_precondition",
    "C47_sizes"
   ],
   "note": "Exact for all 64-bit counts and sizes."
  },
  {
   "property": "C48",
   "status": "proved",
   "theorems": [
    "C48_pool_contract"
   ],
   "note": "Whole histories from allocation; answers of the ghost map are those of the real map (C17-C20)."
  },
  {
   "property": "C49",
   "status": "partial",
   "theorems": [
    "C49_not_found_partial",
    "C49_exact_entry_partial",
    "C49_admitted_is_real_partial",
    "C49_found_refuted"
   ],
   "note": "Not found is exact; whatever is admitted is real; a real result is admitted when its entry was stored under the very key looked up. Refuted otherwise: the contract looks the unmasked key up, so ordinary prefix routes have no execution."
  },
  {
   "property": "C50",
   "status": "proved",
   "theorems": [
    "C50_prefix_match"
   ],
   "note": "All key sizes."
  },
  {
   "property": "C51",
   "status": "partial",
   "theorems": [
    "C51_cht_contract_partial",
    "C51_expired_refuted"
   ],
   "note": "Admitted when the pool's backends are young. Refuted for expired backends still in the pool: C finds none, the contract insists on one."
  },
  {
   "property": "C52",
   "status": "proved",
   "theorems": [
    "C52_success_covers"
   ],
   "note": "All specifications as finite interaction trees, all solvers that are right."
  },
  {
   "property": "C53",
   "status": "proved",
   "theorems": [
    "C53_paths_exact",
    "C53_exploration_terminates"
   ],
   "note": "Path conditions, with the recorded choices; exploring the paths of a state always ends."
  },
  {
   "property": "C54",
   "status": "partial",
   "theorems": [
    "C54_choices_found_partial",
    "C54_assertions_refuted",
    "C54_duplicates_refuted"
   ],
   "note": "Refuted twice: assertions are Python's own exceptions and end the search; dropping used candidates can leave none. Proved when neither happens."
  },
  {
   "property": "C55",
   "status": "proved",
   "theorems": [
    "C55_one_choice_vector"
   ],
   "note": "The reported list of choices; along any run they are all different."
  },
  {
   "property": "C56",
   "status": "partial",
   "theorems": [
    "C56_arithmetic_partial",
    "C56_not_wider_partial",
    "C56_wider_refuted",
    "C56_constant_refuted"
   ],
   "note": "Proved when the right operand fits the left one's width (all 20 operators). Refuted for wider operands and constants, which are truncated."
  },
  {
   "property": "C57",
   "status": "partial",
   "theorems": [
    "C57_split_join_partial",
    "C57_join_split_partial",
    "C57_nested_refuted",
    "C57_narrow_refuted"
   ],
   "note": "Proved for flat structures whose members have their declared widths. Refuted for nested structures (packing raises) and narrower members (misplaced)."
  },
  {
   "property": "C58",
   "status": "partial",
   "theorems": [
    "C58_fields_partial",
    "C58_misplaced_refuted",
    "C58_options_refuted"
   ],
   "note": "All Ethernet fields and nine IPv4 fields, for all packets; ports without IP options. Refuted for dscp, ecn, flags and fragment offset, and for ports with options."
  },
  {
   "property": "C59",
   "status": "partial",
   "theorems": [
    "C59_no_means_none_partial",
    "C59_yes_means_some_partial",
    "C59_one_execution_refuted"
   ],
   "note": "A negative answer is right; a positive one is right when the predicate depends on the value only. Refuted in general: it is satisfiability."
  },
  {
   "property": "C60",
   "status": "proved",
   "theorems": [
    "C60_expiring_set",
    "C60_queries"
   ],
   "note": "For tables filled by any packet history with non-decreasing times."
  },
  {
   "property": "C61",
   "status": "proved",
   "theorems": [
    "C61_firewall",
    "C61_only_replies",
    "C61_inside_and_others"
   ],
   "note": "Refinement to a timed set of flows for ordered clocks; safety for any clock."
  },
  {
   "property": "C62",
   "status": "partial",
   "theorems": [
    "C62_reply_partial",
    "C62_no_sharing_partial",
    "C62_sharing_refuted"
   ],
   "note": "Proved for capacities up to 65536 (one flow per port). Refuted for larger capacities, which the code accepts."
  },
  {
   "property": "C63",
   "status": "proved",
   "theorems": [
    "C63_firewall",
    "C63_nat"
   ],
   "note": "For the firewall's and the NAT's tables."
  },
  {
   "property": "C64",
   "status": "partial",
   "theorems": [
    "C64_divides_partial",
    "C64_twice_partial",
    "C64_small_burst_refuted",
    "C64_rounding_refuted",
    "C64_overflow_refuted",
    "C64_per_second_refuted"
   ],
   "note": "Proved when rate divides burst and 10^9*burst fits in 64 bits; twice the rate otherwise. Refuted for burst < rate, for rounding, for overflow, and if the rate is per second."
  },
  {
   "property": "C65",
   "status": "partial",
   "theorems": [
    "C65_never_back",
    "C65_destination_partial",
    "C65_group",
    "C65_stale_refuted",
    "C65_update_refuted"
   ],
   "note": "Never sent back: proved for every state. Live addresses: proved. Flooding: refuted for addresses whose time has passed, and for frames replaced by an update."
  },
  {
   "property": "C66",
   "status": "partial",
   "theorems": [
    "C66_carry_partial",
    "C66_address_partial",
    "C66_touches_partial",
    "C66_wrong_place_refuted",
    "C66_identity_refuted",
    "C66_nat_source_refuted"
   ],
   "note": "Exact condition for the update formula. Refuted: it lacks the end-around carry and is applied two bytes past the checksum. Two-word updates (addresses): exact when the sums need no carry."
  },
  {
   "property": "C67",
   "status": "partial",
   "theorems": [
    "C67_sticky_partial",
    "C67_affinity_refuted",
    "C67_zero_refuted"
   ],
   "note": "Refuted: the flow's backend is never stored. Holds while no backend comes up and backend 0 is down."
  },
  {
   "property": "C68",
   "status": "partial",
   "theorems": [
    "C68_address_partial",
    "C68_rejected_partial",
    "C68_enable_refuted"
   ],
   "note": "Bus, device, function and register are those of the last address, after a flush; other port uses are rejected. Refuted: an address without the enable bit is accepted."
  },
  {
   "property": "C69",
   "status": "partial",
   "theorems": [
    "C69_concrete",
    "C69_symbolic_partial",
    "C69_tables",
    "C69_reserved_refuted"
   ],
   "note": "Concrete registers in full; all the device's descriptions qualify. Refuted for registers with unspecified fields: reserved bits below such a field are unconstrained (PFVLVF)."
  },
  {
   "property": "C70",
   "status": "proved",
   "theorems": [
    "C70_one_field"
   ],
   "note": ""
  },
  {
   "property": "C71",
   "status": "partial",
   "theorems": [
    "C71_tables",
    "C71_read_only_registers",
    "C71_description_refuted"
   ],
   "note": "For the device's own tables, and for read-only registers of any description. Refuted for other descriptions: the check stops at a field that ignores writes."
  },
  {
   "property": "C72",
   "status": "partial",
   "theorems": [
    "C72_lookup_partial",
    "C72_table_partial",
    "C72_pci",
    "C72_near_partial",
    "C72_inside_refuted",
    "C72_three_ranges_refuted"
   ],
   "note": "For the first byte of every register instance of the device's table; any accepted address is taken for an instance starting at or before it, less than one step away. Refuted for other bytes, for addresses of no register, and for three ranges."
  },
  {
   "property": "C73",
   "status": "proved",
   "theorems": [
    "C73_widening_is_monotone",
    "C73_violating_item_is_covered",
    "C73_written_items_comply"
   ],
   "note": "Monotone and covering for any guesses; the widened invariant is the disjunction the code builds."
  },
  {
   "property": "C74",
   "status": "partial",
   "theorems": [
    "C74_fixpoint_is_inductive_partial",
    "C74_length_bounds_hold_partial",
    "C74_learned_bounds_hold_partial",
    "C74_cross_map_invariants_refuted",
    "C74_absent_items_refuted",
    "C74_kept_guesses_hold_partial"
   ],
   "note": "Each map's own invariant and the length bounds are proved inductive when the search converges. Refuted: invariants that relate two maps, and the presence of array items, can be broken by the next packet. Also proved: when the solver is sound, a guess that was kept (and reads no map) holds of every item of the map in every state of the analysed code."
  },
  {
   "property": "C75",
   "status": "proved",
   "theorems": [
    "C75_search_returns_converged_iteration",
    "C75_no_start_is_lost"
   ],
   "note": "For an arbitrary packet handler and inference. Termination is not claimed."
  },
  {
   "property": "C76",
   "status": "proved",
   "theorems": [
    "C76_lookup_is_last_attached",
    "C76_get",
    "C76_search_is_unique",
    "C76_merge_needs_equality"
   ],
   "note": "Values compare with an arbitrary structural equality (C14 models the real one)."
  },
  {
   "property": "C77",
   "status": "proved",
   "theorems": [
    "C77_one_time",
    "C77_second_reading_aborts"
   ],
   "note": "A second reading aborts, so all readings of a state are the one."
  },
  {
   "property": "C78",
   "status": "proved",
   "theorems": [
    "C78_totals",
    "C78_only_disjoint_intervals",
    "C78_other_values_do_not_matter"
   ],
   "note": "Durations are exact integers; floating-point rounding is not modelled."
  },
  {
   "property": "C79",
   "status": "proved",
   "theorems": [
    "C79_reads_up_to_terminator",
    "C79_symbolic_byte_aborts"
   ],
   "note": "For any memory of byte expressions; addresses wrap at 64 bits."
  },
  {
   "property": "C80",
   "status": "partial",
   "theorems": [
    "C80_write_then_read",
    "C80_rest_unchanged",
    "C80_reachable_sized",
    "C80_big_endian_whole_partial",
    "C80_big_endian_part_refuted"
   ],
   "note": "Little-endian accesses in full, and whole elements in big-endian. Refuted for big-endian accesses to a part of an element."
  },
  {
   "property": "C81",
   "status": "partial",
   "theorems": [
    "C81_big_endian_element_partial",
    "C81_part_of_element_refuted",
    "C81_across_elements_refuted"
   ],
   "note": "Whole elements proved; refuted for parts of elements (the mirrored bytes are written) and across elements (load and store reverse differently)."
  },
  {
   "property": "C82",
   "status": "partial",
   "theorems": [
    "C82_allocation_contract_partial",
    "C82_last_address_refuted"
   ],
   "note": "For an arena that ends before the last address; refuted at the very end of the address space, where the contract is off by one from the header."
  },
  {
   "property": "C83",
   "status": "partial",
   "theorems": [
    "C83_choice_offered_partial",
    "C83_unoffered_refuted"
   ],
   "note": "Holds when all paths offer the same lists; refuted otherwise, the assertion in choose tests a non-empty list."
  },
  {
   "property": "C84",
   "status": "proved",
   "theorems": [
    "C84_firewall_spec",
    "C84_spec_meaning",
    "C84_small_spec"
   ],
   "note": "What the specification accepts is characterised (`_spec_meaning`). The assertion on the packet's data is not modelled."
  },
  {
   "property": "C85",
   "status": "proved",
   "theorems": [
    "C85_nat_spec",
    "C85_spec_meaning"
   ],
   "note": "What the specification accepts is characterised (`_spec_meaning`). Holds for any capacity: the specification does not exclude the port sharing of C62."
  },
  {
   "property": "C86",
   "status": "partial",
   "theorems": [
    "C86_transmit_partial",
    "C86_flood",
    "C86_flood_except",
    "C86_own_device_refuted"
   ],
   "note": "Refuted for transmitting on the ingress device, which TinyNF sends elsewhere or out of bounds."
  },
  {
   "property": "C87",
   "status": "partial",
   "theorems": [
    "C87_root_partial",
    "C87_lost_refuted",
    "C87_disabled_partial",
    "C87_disabled_refuted",
    "C87_best_partial",
    "C87_smallest_partial",
    "C87_blocked_partial",
    "C87_group_partial",
    "C87_root_port_refuted",
    "C87_cost_refuted"
   ],
   "note": "Proved over histories: the way to the root is the best of those in the BPDUs read, the root is the smallest of all received if none arrives when an update is due, which ports are blocked, and that group frames go exactly to the others. Refuted: BPDUs that arrive when an update is due are dropped, learned addresses are sent to blocked ports, the port to the root can be blocked, and costs wrap around."
  },
  {
   "property": "C88",
   "status": "partial",
   "theorems": [
    "C88_live",
    "C88_only",
    "C88_starts_partial",
    "C88_height_refuted"
   ],
   "note": "For prime table heights (see C42, C43); refuted for others, which the load balancer accepts."
  },
  {
   "property": "C89",
   "status": "partial",
   "theorems": [
    "C89_maglev_spec_partial",
    "C89_spec_meaning",
    "C89_expired_refuted"
   ],
   "note": "What the specification accepts is characterised (`_spec_meaning`). Proved except when a packet is dropped although a backend was heard of; refuted there."
  },
  {
   "property": "C90",
   "status": "proved",
   "theorems": [
    "C90_justified"
   ],
   "note": "For the whole register and action tables; TDT's extra memory check is not modelled."
  },
  {
   "property": "C91",
   "status": "partial",
   "theorems": [
    "C91_ignored_refuted",
    "C91_written_back_partial"
   ],
   "note": "Refuted on RDBAL. Proved for drivers that write the fields back as they found them."
  },
  {
   "property": "C92",
   "status": "partial",
   "theorems": [
    "C92_receive_partial",
    "C92_transmit_partial",
    "C92_receive_ready_refuted",
    "C92_master_refuted"
   ],
   "note": "Ring tails: proved. Refuted: reception without the receive path ready, bus mastering disabled with queue 1 enabled."
  },
  {
   "property": "C93",
   "status": "partial",
   "theorems": [
    "C93_effects_partial",
    "C93_both_refuted"
   ],
   "note": "Each postcondition of the table, in full. Refuted for a write that matches two actions: only the last one's effects are applied."
  },
  {
   "property": "C94",
   "status": "partial",
   "theorems": [
    "C94_only_shared_symbols_partial",
    "C94_shared_symbols",
    "C94_compound_keys_refuted"
   ],
   "note": "Proved for keys and values that are symbols or constants. Refuted for compound keys: the packet's own symbols stay in the invariant."
  },
  {
   "property": "C95",
   "status": "proved",
   "theorems": [
    "C95_write_takes_effect",
    "C95_first_read_free"
   ],
   "note": "For the whole register and action tables and every state reached by reads and writes."
  },
  {
   "property": "C96",
   "status": "partial",
   "theorems": [
    "C96_packet_is_well_formed",
    "C96_every_packet_is_covered_partial",
    "C96_dpdk_time_not_covered_refuted",
    "C96_received_packet_is_kept"
   ],
   "note": "All frames, and all readings of the Linux and bare-metal clock, are covered. Refuted for DPDK, whose clock reads times (odd ones) no verified packet has."
  },
  {
   "property": "C97",
   "status": "partial",
   "theorems": [
    "C97_tinynf_sends_what_is_seen_partial",
    "C97_dpdk_sends_what_is_seen_partial",
    "C97_excluded_devices_refuted",
    "C97_flags_refuted",
    "C97_own_device_refuted",
    "C97_length_refuted",
    "C97_two_transmissions_are_rejected"
   ],
   "note": "Proved for both drivers without flags and excluded devices; for TinyNF also without transmission to the packet's own device, for DPDK without changes of length. Each restriction is needed: see the _refuted theorems."
  },
  {
   "property": "C98",
   "status": "partial",
   "theorems": [
    "C98_one_value_per_name",
    "C98_every_configuration_is_covered",
    "C98_paths_are_configurations_partial",
    "C98_lost_name_refuted"
   ],
   "note": "Every configuration is covered. Refuted the other way: a name found once may be missing the next time. Proved for paths without that."
  },
  {
   "property": "C99",
   "status": "partial",
   "theorems": [
    "C99_intel_clock",
    "C99_dpdk_clock_partial",
    "C99_monotonic",
    "C99_intel_never_max",
    "C99_dpdk_clock_refuted"
   ],
   "note": "Proved for Linux and bare metal. Refuted for DPDK, whose resolution depends on the zeros at the end of the frequency."
  },
  {
   "property": "C100",
   "status": "partial",
   "theorems": [
    "C100_linux_sleep",
    "C100_dpdk_sleep_partial",
    "C100_dpdk_sleep_refuted",
    "C100_metal_sleep_partial",
    "C100_metal_sleep_ends_refuted"
   ],
   "note": "Proved for Linux. DPDK: proved up to 4 ms, refuted beyond. Bare metal: a sleep that ends lasted as long as asked; refuted: it need not end."
  },
  {
   "property": "C101",
   "status": "proved",
   "theorems": [
    "C101_in_order_once",
    "C101_progress",
    "C101_on_the_wire"
   ],
   "note": "Proved for every interleaving, with the cards' behaviour as ixgbe.c quotes it from the data sheet."
  },
  {
   "property": "C102",
   "status": "proved",
   "theorems": [
    "C102_no_overwrite"
   ],
   "note": "Proved for every interleaving."
  },
  {
   "property": "C103",
   "status": "partial",
   "theorems": [
    "C103_stalls_refuted",
    "C103_keeps_receiving_partial"
   ],
   "note": "Refuted: after an output was 192 packets behind at one reading of its head, the driver can wait forever although everything was sent. Proved when each reading finds fewer than 192."
  },
  {
   "property": "C104",
   "status": "proved",
   "theorems": [
    "C104_own_queue",
    "C104_devices",
    "C104_tails",
    "C104_apart"
   ],
   "note": "The second theorem says for which numbers of devices the queues exist; C104_tails and C104_apart are about the set-up code itself."
  },
  {
   "property": "C105",
   "status": "partial",
   "theorems": [
    "C105_usable_addresses_partial",
    "C105_small_network_refuted"
   ],
   "note": "Proved for networks of at least 8 addresses (masks up to /29). Refuted for smaller ones, where the capacity wraps around and unused entries stay 0.0.0.0."
  },
  {
   "property": "C106",
   "status": "partial",
   "theorems": [
    "C106_one_holder_partial",
    "C106_small_network_refuted"
   ],
   "note": "Proved for networks of at least 8 addresses; refuted for smaller ones. The lease functions are called directly: the handler that should call them is commented out."
  },
  {
   "property": "C107",
   "status": "partial",
   "theorems": [
    "C107_lease_time_refuted"
   ],
   "note": "Refuted."
  },
  {
   "property": "C108",
   "status": "partial",
   "theorems": [
    "C108_offer_partial",
    "C108_handler_refuted",
    "C108_not_recognized_refuted",
    "C108_recognized_partial"
   ],
   "note": "Refuted: the handler never sends, and does not recognize DHCP packets. The lease function offers an address unless every one is held; missing: the way from the packet to it."
  },
  {
   "property": "C109",
   "status": "partial",
   "theorems": [
    "C109_options_partial",
    "C109_in_bounds_partial",
    "C109_overrun_refuted",
    "C109_refusal_refuted"
   ],
   "note": "Proved when the message has room for the reply (34 bytes of options) and starts with its type; refuted for a message as long as the declared structure, and for the operation code of a refusal. The options field is a pointer in the packed header; the model takes what it points to as given."
  },
  {
   "property": "C110",
   "status": "proved",
   "theorems": [
    "C110_keeps_address",
    "C110_request_acknowledged",
    "C110_only_own"
   ],
   "note": "Proved; with when a REQUEST is acknowledged."
  },
  {
   "property": "C111",
   "status": "partial",
   "theorems": [
    "C111_published_spec_partial",
    "C111_tie_refuted"
   ],
   "note": "Proved for every history whose commands meet lpm_set's precondition and in which routes of one prefix agree; refuted for two routes of one prefix with different devices."
  },
  {
   "property": "C112",
   "status": "partial",
   "theorems": [
    "C112_validation_partial",
    "C112_checksum_refuted",
    "C112_valid_partial",
    "C112_total_length_refuted",
    "C112_ttl_refuted"
   ],
   "note": "Refuted for the checksum, the total length and the time to live; the remaining checks are proved."
  },
  {
   "property": "C113",
   "status": "partial",
   "theorems": [
    "C113_host_routes_partial",
    "C113_networks_refuted"
   ],
   "note": "Refuted for networks; proved for tables of single addresses and a default route."
  },
  {
   "property": "C114",
   "status": "partial",
   "theorems": [
    "C114_named_device_partial",
    "C114_command",
    "C114_device_refuted",
    "C114_precondition_refuted",
    "C114_capacity"
   ],
   "note": "Refuted; proved that the device was named by a command."
  },
  {
   "property": "C115",
   "status": "partial",
   "theorems": [
    "C115_same_verdicts_partial",
    "C115_same_start_partial",
    "C115_no_flows_refuted",
    "C115_alignment_refuted"
   ],
   "note": "Verdicts proved equal for every history; refuted for a configuration without flows, which only the C policer accepts, and for the alignment of a reference."
  },
  {
   "property": "C116",
   "status": "proved",
   "theorems": [
    "C116_start",
    "C116_spec_meaning",
    "C116_forwards"
   ],
   "note": ""
  },
  {
   "property": "C117",
   "status": "proved",
   "theorems": [
    "C117_spec_meaning",
    "C117_weak",
    "C117_policer_spec",
    "C117_rust_policer_spec"
   ],
   "note": "Also proved: what the specification means, and how little (it says nothing of rates, or of devices)."
  },
  {
   "property": "C118",
   "status": "partial",
   "theorems": [
    "C118_spec_meaning",
    "C118_bridge_spec_partial",
    "C118_exactly",
    "C118_blocked_refuted"
   ],
   "note": "Proved exactly when: the update time is over, the frame is a spanning tree message, its destination is known, or no other device is blocked."
  },
  {
   "property": "C119",
   "status": "partial",
   "theorems": [
    "C119_write_field_partial",
    "C119_set_and_clear",
    "C119_read_field",
    "C119_masks",
    "C119_wide_value_refuted"
   ],
   "note": "Proved for values that fit in the field; refuted for wider ones."
  },
  {
   "property": "C120",
   "status": "proved",
   "theorems": [
    "C120_writes_allowed"
   ],
   "note": ""
  },
  {
   "property": "C121",
   "status": "proved",
   "theorems": [
    "C121_accesses_reachable"
   ],
   "note": ""
  },
  {
   "property": "C122",
   "status": "partial",
   "theorems": [
    "C122_timeout_partial",
    "C122_still_true_refuted"
   ],
   "note": "Proved: when and how often the condition is tested, and when waiting ends; refuted: the last tenth of the timeout is not tested."
  },
  {
   "property": "C123",
   "status": "proved",
   "theorems": [
    "C123_start_up_ends",
    "C123_agent_ends"
   ],
   "note": ""
  },
  {
   "property": "C124",
   "status": "proved",
   "theorems": [
    "C124_order",
    "C124_configured",
    "C124_rates",
    "C124_waits"
   ],
   "note": "The configuration is proved for cards whose registers keep what is written, a simplification stated in IxgbeCard.v; order and rates for all answers."
  },
  {
   "property": "C125",
   "status": "proved",
   "theorems": [
    "C125_promiscuous",
    "C125_disabled"
   ],
   "note": ""
  },
  {
   "property": "C126",
   "status": "partial",
   "theorems": [
    "C126_card_address",
    "C126_48_bits_refuted",
    "C126_destinations_refuted",
    "C126_destinations_agree"
   ],
   "note": "Card addresses proved; 48 bits and distinct destinations refuted."
  },
  {
   "property": "C127",
   "status": "partial",
   "theorems": [
    "C127_configuration_read_partial",
    "C127_pending_refuted",
    "C127_identity"
   ],
   "note": "Proved for offsets that are multiples of four and for the identity and mapping; refuted for the device status register."
  },
  {
   "property": "C128",
   "status": "partial",
   "theorems": [
    "C128_swap16_partial",
    "C128_swap_refuted"
   ],
   "note": "Proved for 16 bits stored in 16 bits; 32 and 64 bits refuted."
  },
  {
   "property": "C129",
   "status": "partial",
   "theorems": [
    "C129_flags_refuted",
    "C129_tail_refuted",
    "C129_zeros_partial"
   ],
   "note": "Refuted for stale flags and tails; proved for structures filled with zeros."
  },
  {
   "property": "C130",
   "status": "proved",
   "theorems": [
    "C130_output",
    "C130_input",
    "C130_ring"
   ],
   "note": "For cards whose registers keep what is written; the head must be at a multiple of 16 bytes, as the driver checks."
  },
  {
   "property": "C131",
   "status": "partial",
   "theorems": [
    "C131_map_contract_partial",
    "C131_long_keys_refuted"
   ],
   "note": "Proved for keys of one heap element; refuted for longer keys, of which only the first element is taken."
  },
  {
   "property": "C132",
   "status": "partial",
   "theorems": [
    "C132_contracts_enough",
    "C132_firewall",
    "C132_nat",
    "C132_policer",
    "C132_bridge",
    "C132_balancer",
    "C132_programs",
    "C132_init_partial",
    "C132_init_refuted"
   ],
   "note": "The start-up part holds only for capacities of less than 2^58: nothing checks the configured capacity before the allocations. The backends' lookup has a weaker contract than cht.h, which the C lookup does not meet (C51)."
  },
  {
   "property": "C133",
   "status": "proved",
   "theorems": [
    "C133_hash",
    "C133_hash_value",
    "C133_hash_of_words",
    "C133_eq",
    "C133_copy"
   ],
   "note": "Overlapping ranges are outside the contract of the copy (restrict)."
  },
  {
   "property": "C134",
   "status": "proved",
   "theorems": [
    "C134_only_present_pages",
    "C134_blocks"
   ],
   "note": "The premise on the pagemap is what one page of a gigabyte means; that Linux keeps it in place is assumed, as in the code's comment."
  },
  {
   "property": "C135",
   "status": "partial",
   "theorems": [
    "C135_dpdk_alignment_partial",
    "C135_dpdk_request",
    "C135_dpdk_no_memory_refuted",
    "C135_dpdk_alignment_refuted"
   ],
   "note": "Refuted: with no memory left the result is NULL, and objects of 64 or 128 bytes may get less alignment than promised. The partial theorem covers the alignments that are powers of two."
  },
  {
   "property": "C136",
   "status": "proved",
   "theorems": [
    "C136_enumerate"
   ],
   "note": ""
  },
  {
   "property": "C137",
   "status": "partial",
   "theorems": [
    "C137_one_outcome",
    "C137_no_reset",
    "C137_starts",
    "C137_features_partial",
    "C137_features_refuted"
   ],
   "note": "Trusted: the machine in Boot.v (that the manuals are transcribed right); the stack does not overlap the code (the linker script). Faults are resets, as in the comment. Refuted: a processor whose highest basic leaf is 3 to 6 passes the FSGSBASE check with unrelated data."
  },
  {
   "property": "C138",
   "status": "partial",
   "theorems": [
    "C138_state_partial",
    "C138_memory",
    "C138_read_refuted",
    "C138_idt_partial",
    "C138_idt_refuted"
   ],
   "note": "Refuted in two details of the comment: the code segment is execute-only (bit 41 clear), and nothing makes the interrupt table invalid. The rest is proved for every state."
  },
  {
   "property": "C139",
   "status": "partial",
   "theorems": [
    "C139_enabled_partial",
    "C139_enabled_refuted"
   ],
   "note": "Proved if CR0.TS is clear when the loader jumps to the code; the code does not clear it."
  },
  {
   "property": "C140",
   "status": "partial",
   "theorems": [
    "C140_verdict",
    "C140_stored_partial",
    "C140_stored_same_partial",
    "C140_stored_refuted"
   ],
   "note": "Proved for every history without --use-cached-symbex. With it, proved if the program was not edited and the mode is the same; refuted otherwise (the cache has no check of the program or the mode). Premises: pickle reads what it wrote and refuses a strict prefix."
  },
  {
   "property": "C141",
   "status": "partial",
   "theorems": [
    "C141_distinct",
    "C141_new_partial",
    "C141_new_refuted"
   ],
   "note": "Proved for executions that create at most 1000000 symbols; refuted beyond. The names with explicit_name are those in the code."
  },
  {
   "property": "C142",
   "status": "partial",
   "theorems": [
    "C142_start_partial",
    "C142_starts_partial",
    "C142_flag",
    "C142_halts_refuted"
   ],
   "note": "Proved for start-up code that does not halt (and every accepted program is such); refuted for code that may: NameError in engine.py 43. Also proved: the flag that allows halting makes no difference."
  },
  {
   "property": "C143",
   "status": "partial",
   "theorems": [
    "C143_cards_partial",
    "C143_cards_refuted",
    "C143_device",
    "C143_all_kept_partial",
    "C143_all_kept_refuted"
   ],
   "note": "Proved for two cards; refuted for one or three. Accesses are for the right card; executions with other addresses are left out."
  },
  {
   "property": "C144",
   "status": "partial",
   "theorems": [
    "C144_every_packet_was_explored_partial",
    "C144_start_up_writes_refuted",
    "C144_first_packet_refuted"
   ],
   "note": "Proved for any history of packets that follow explored paths, when the search starts from one state with unwritten maps, invariants have no lookups and hold of absent keys, keys and values are symbols or constants, nothing is guessed, length bounds hold of the starting state, and the last two explorations write the same maps. Refuted: a map written at start-up and overwritten by packets with values that comply with its invariant is only explored with its first value; a length bound that holds after every packet but not after start-up is assumed of all packets."
  },
  {
   "property": "C145",
   "status": "partial",
   "theorems": [
    "C145_every_program_refuted",
    "C145_first_access_refuted",
    "C145_startup_partial",
    "C145_one_card_partial"
   ],
   "note": "Refuted for every program. Proved: without Python's assertions, accesses to configuration space, and to the registers of cards found there, are served, and each card accessed has one model."
  },
  {
   "property": "C146",
   "status": "partial",
   "theorems": [
    "C146_ordinary_partial",
    "C146_object_partial",
    "C146_same_address_partial",
    "C146_scaled_index_refuted",
    "C146_fixed_address_refuted",
    "C146_byte_order"
   ],
   "note": "Proved for objects that do not overlap, pointers that C10 resolves rightly and accesses within bounds; angr's own memory is reached only with addresses that have one value. Refuted for scaled indices (the bug of C10) and for constant addresses inside objects at fixed addresses."
  },
  {
   "property": "C147",
   "status": "partial",
   "theorems": [
    "C147_best_fit_first",
    "C147_own_structures_refuted",
    "C147_cell_is_packet_refuted",
    "C147_cells_partial",
    "C147_one_object_partial",
    "C147_cell_elsewhere_refuted",
    "C147_distinct"
   ],
   "note": "Proved: candidates have room, best fit first and first made first; one object on all paths that know the same objects (one declaration); distinct objects for distinct declarations; cells have one element on the path that chooses. Refuted: the packet and the fractions are candidates, since the excluded names (fracs_, packet_) are not the names in use (_fracs, pkt); cells may have any length on other paths."
  },
  {
   "property": "C148",
   "status": "proved",
   "theorems": [
    "C148_first_choice_decides",
    "C148_meant",
    "C148_bridge",
    "C148_kinds"
   ],
   "note": "For specifications that fail only by assertions and add no constraints of their own; for the bridge, on paths where the spanning tree's state is known to be one structure."
  },
  {
   "property": "C149",
   "status": "partial",
   "theorems": [
    "C149_only_unchanged_partial",
    "C149_same_length",
    "C149_unwritten_partial",
    "C149_restored_refuted"
   ],
   "note": "The 'only if' half is proved for writes at constant offsets, and 'if' for packets that were not written. 'If' is false in general (C149_restored_refuted): a byte that was changed and put back can be remembered as changed."
  },
  {
   "property": "C150",
   "status": "partial",
   "theorems": [
    "C150_wire",
    "C150_announces",
    "C150_roots_refuted",
    "C150_no_port_blocked",
    "C150_circulates_refuted",
    "C150_reaches_partial",
    "C150_ends_partial"
   ],
   "note": "Refuted in all networks with more than one bridge (no agreement) and with a loop (frames circulate for ever), when hosts do not send spanning tree messages themselves. Proved: frames die out in trees, and reach every port there in executions without losses and without due updates."
  },
  {
   "property": "C151",
   "status": "partial",
   "theorems": [
    "C151_pool",
    "C151_pool_determined",
    "C151_map",
    "C151_cht_partial",
    "C151_cht_refuted",
    "C151_ghostmap_lemmas",
    "C151_array_lemmas",
    "C151_arithmetic_lemmas",
    "C151_power_lemmas"
   ],
   "note": "Proved for the map's and the pool's headers and for the lemmas of four of the proof headers. The consistent-hashing header is met with prime heights and while no backend in the pool is too old; otherwise refuted."
  },
  {
   "property": "C152",
   "status": "partial",
   "theorems": [
    "C152_exact_partial",
    "C152_small_partial",
    "C152_exact_refuted",
    "C152_kept_refuted"
   ],
   "note": "Proved when no packet as long as the burst is for an address that has expired, in particular when all packets are shorter than the burst. Otherwise refuted: the program finds the expired entry, requires less than the burst, and keeps the entry alive."
  },
  {
   "property": "C153",
   "status": "partial",
   "theorems": [
    "C153_apart_partial",
    "C153_apart_refuted",
    "C153_room_refuted"
   ],
   "note": "Proved for packets shorter than the burst. Refuted for longer ones, and when there is no room."
  },
  {
   "property": "C154",
   "status": "proved",
   "theorems": [
    "C154_apart",
    "C154_replies",
    "C154_room_needed"
   ],
   "note": "For flows that fit; C154_room_needed shows that more flows than fit do disturb each other."
  },
  {
   "property": "C155",
   "status": "partial",
   "theorems": [
    "C155_port_kept",
    "C155_one_port",
    "C155_replies",
    "C155_refusal_partial",
    "C155_refusal_refuted",
    "C155_source_refuted"
   ],
   "note": "Ports and replies proved; refusals up to the packets that count as activity. Refuted: strangers' dropped packets keep ports in use, and the source address of replies is changed."
  },
  {
   "property": "C156",
   "status": "proved",
   "theorems": [
    "C156_known",
    "C156_unknown",
    "C156_room_needed"
   ],
   "note": "For stations heard of within the expiration time and for those never heard of; expired ones are in C65."
  },
  {
   "property": "C157",
   "status": "proved",
   "theorems": [
    "C157_conforming",
    "C157_bound_tight"
   ],
   "note": "For packets shorter than the burst on all addresses, as in C153; the rate is per nanosecond, as the code has it (C64)."
  },
  {
   "property": "C158",
   "status": "partial",
   "theorems": [
    "C158_moves_partial",
    "C158_one_partial",
    "C158_zero_refuted"
   ],
   "note": "Refuted when backend 0 is alive both times (the flow's backend is never stored, see C67); proved otherwise, also for two load balancers that are configured alike. Prime table heights, see C42."
  },
  {
   "property": "C159",
   "status": "partial",
   "theorems": [
    "C159_beats_partial",
    "C159_others_refuted"
   ],
   "note": "Refuted when backend 0 is alive (see C67); proved otherwise, for prime table heights (see C42)."
  },
  {
   "property": "C160",
   "status": "proved",
   "theorems": [
    "C160_justified"
   ],
   "note": "For packets shorter than the burst to no more addresses than there is room for, as in C153; the rate is per nanosecond, as the code has it (C64)."
  }
 ]
}