{
 "claims": [
  {
   "property": "C01",
   "status": "proved",
   "theorems": [
    "C01_field_one_constant_partial",
    "C01_field_positive_partial",
    "C01_simplify_preserves_meaning"
   ],
   "note": "Proved for every leaf vocabulary whose implication and negation customisations are truthful. The library's own field matchers are not truthful for != against != (see C02); field-level results are C01_field_*_partial."
  },
  {
   "property": "C02",
   "status": "partial",
   "theorems": [
    "C02_exact",
    "C02_implication_refuted",
    "C02_implication_partial",
    "C02_field_and_refuted"
   ],
   "note": "False for != against != with different constants (witness in C02_implication_refuted, consequence in C02_field_and_refuted); proved for all other operator pairs, all widths, signednesses, constants and values. C02_exact: of the implications the library claims, exactly those from != to another != are false."
  },
  {
   "property": "C03",
   "status": "proved",
   "theorems": [
    "C03_sum_of_products_meaning",
    "C03_sum_of_products_shape",
    "C03_recursion_terminates"
   ],
   "note": ""
  },
  {
   "property": "C04",
   "status": "proved",
   "theorems": [
    "C04_ordering_sound",
    "C04_ordering_antisymmetric"
   ],
   "note": ""
  },
  {
   "property": "C05",
   "status": "partial",
   "theorems": [
    "C05_self_equivalence_refuted",
    "C05_self_equivalence_partial",
    "C05_self_collapse_partial"
   ],
   "note": "False for compound matchers (witness); exact characterisation proved: X <=> X is equivalent iff the simplified X is not an and/or."
  },
  {
   "property": "C06",
   "status": "proved",
   "theorems": [
    "C06_cost_never_increases"
   ],
   "note": ""
  },
  {
   "property": "C07",
   "status": "proved",
   "theorems": [
    "C07_no_redundant_constants"
   ],
   "note": ""
  },
  {
   "property": "C08",
   "status": "proved",
   "theorems": [
    "C08_roundtrip",
    "C08_roundtrip_representable",
    "C08_last_write_wins",
    "C08_any_width",
    "C08_seats_narrow"
   ],
   "note": "C08_any_width says what is read back in elements of any width, C08_seats_narrow that for 8, 16 and 32 bits this is the value."
  },
  {
   "property": "C09",
   "status": "proved",
   "theorems": [
    "C09_frame",
    "C09_independent",
    "C09_commute"
   ],
   "note": "The quantifier leaves 64-bit elements out, where the property fails with fields in an odd dword (C10)."
  },
  {
   "property": "C10",
   "status": "partial",
   "theorems": [
    "C10_read_refuted",
    "C10_write_refuted",
    "C10_read_partial",
    "C10_write_partial",
    "C10_conditions_hold_for_narrow_storage",
    "C10_read_exact",
    "C10_write_exact",
    "C10_read_right_iff",
    "C10_write_right_iff"
   ],
   "note": "False for 64-bit storage elements (two witnesses: odd-dword fields are read from the dword below; values of <=32-bit type crossing a dword lose high bits on write). Proved for 8-, 16- and 32-bit elements, and for 64-bit elements under the stated alignment conditions. C10_read_exact and C10_write_exact give what is read and written for every field in every element width; C10_read_right_iff and C10_write_right_iff say for which fields that is right."
  },
  {
   "property": "C11",
   "status": "proved",
   "theorems": [
    "C11_concatenation"
   ],
   "note": "The quantifier leaves 64-bit elements out, where the property fails with fields in an odd dword (C10)."
  },
  {
   "property": "C12",
   "status": "partial",
   "theorems": [
    "C12_accepted_refuted",
    "C12_accepted_partial",
    "C12_read_iff_inside",
    "C12_computed_storage_fits",
    "C12_places",
    "C12_computed_storage_least",
    "C12_read_iff_inside_any",
    "C12_inside_any"
   ],
   "note": "False by one bit: fits_inside compares the last bit's index with the bit count using <= (witness reads and writes out of bounds). Proved with the strict bound, exactly characterised for reads, and proved for the storage sizes the library computes. C12_inside_any, C12_read_iff_inside_any: for elements of any width, which accesses stay inside."
  },
  {
   "property": "C13",
   "status": "proved",
   "theorems": [
    "C13_construct",
    "C13_construct_then_get",
    "C13_acceptance",
    "C13_set",
    "C13_construct_from_storage",
    "C13_default_storage_fits"
   ],
   "note": "The quantifier leaves 64-bit elements out, where the property fails with fields in an odd dword (C10)."
  },
  {
   "property": "C14",
   "status": "proved",
   "theorems": [
    "C14_equivalent_iff",
    "C14_equivalence_relation",
    "C14_ignores_other_bits"
   ],
   "note": "The quantifier leaves 64-bit elements out, where the property fails with fields in an odd dword (C10)."
  },
  {
   "property": "C15",
   "status": "partial",
   "theorems": [
    "C15_exact",
    "C15_order_refuted",
    "C15_order_partial",
    "C15_observations"
   ],
   "note": "False for fields starting at the same bit (witness: two orders, two types). Proved for distinct start bits; acceptance, lookup by name and storage size proved order-independent in all cases. C15_exact: a reordering gives the same type exactly if fields that start at the same bit keep their order."
  },
  {
   "property": "C16",
   "status": "partial",
   "theorems": [
    "C16_override_refuted",
    "C16_override_partial",
    "C16_exact"
   ],
   "note": "False when the new field starts above the one it should replace (witness); proved when it does not, with an exact characterisation of every case."
  },
  {
   "property": "C17",
   "status": "proved",
   "theorems": [
    "C17_pack",
    "C17_pack_value"
   ],
   "note": ""
  },
  {
   "property": "C18",
   "status": "proved",
   "theorems": [
    "C18_relaxed",
    "C18_layout"
   ],
   "note": ""
  },
  {
   "property": "C19",
   "status": "partial",
   "theorems": [
    "C19_handle",
    "C19_field_refuted",
    "C19_field_one_constant_partial",
    "C19_field_positive_partial",
    "C19_builder_add"
   ],
   "note": "Proved for every truthful leaf vocabulary (C19_handle). False over field matchers because f!=x is taken to imply f!=y (witness); proved for field matchers with one ==/!= constant per field and for negation-free matchers."
  },
  {
   "property": "C20",
   "status": "partial",
   "theorems": [
    "C20_sum_runs_twice_refuted",
    "C20_negation_dropped_refuted",
    "C20_shared_negative_refuted",
    "C20_two_equals_refuted",
    "C20_no_index_refuted",
    "C20_positive_partial",
    "C20_clean_partial",
    "C20_index_complete",
    "C20_index_exact"
   ],
   "note": "False in five ways, each with a witness: a sum runs once per term, a negated predicate loses its negation, a != key shared by two callbacks, two == constants in a product, no index fields. Proved outside those cases; completeness of the index is proved without restriction."
  },
  {
   "property": "C21",
   "status": "proved",
   "theorems": [
    "C21_is_match_never_misses",
    "C21_is_match_complete"
   ],
   "note": ""
  },
  {
   "property": "C22",
   "status": "partial",
   "theorems": [
    "C22_with_less_than_refuted",
    "C22_constraints_partial",
    "C22_with_less_than_actual"
   ],
   "note": "False for with_less_than, which is defined as less_than_or_equal_to (witness); every other constraint proved exact."
  },
  {
   "property": "C23",
   "status": "proved",
   "theorems": [
    "C23_make",
    "C23_strategies",
    "C23_value_unique",
    "C23_make_compiles"
   ],
   "note": ""
  },
  {
   "property": "C24",
   "status": "proved",
   "theorems": [
    "C24_in_bounds",
    "C24_build_exact",
    "C24_index_fits"
   ],
   "note": ""
  },
  {
   "property": "C25",
   "status": "partial",
   "theorems": [
    "C25_refuted",
    "C25_plus_one_partial",
    "C25_one_partial",
    "C25_cheapest"
   ],
   "note": "False by one: a maximum of 2 gives buckets of 3 (witness); proved with M+1, and exactly 1 for M=1."
  },
  {
   "property": "C26",
   "status": "partial",
   "theorems": [
    "C26_injective_refuted",
    "C26_range",
    "C26_no_signed_overflow",
    "C26_no_carry_partial",
    "C26_one_stretch_partial",
    "C26_two_stretches_exact",
    "C26_chosen_mask"
   ],
   "note": "Injectivity is false in general (8-bit mask 1011). Range and absence of signed overflow proved for all masks; injectivity proved under an explicit no-carry condition, for one-stretch masks, and exactly characterised for two-stretch masks."
  },
  {
   "property": "C27",
   "status": "proved",
   "theorems": [
    "C27_order",
    "C27_run"
   ],
   "note": ""
  },
  {
   "property": "C28",
   "status": "proved",
   "theorems": [
    "C28_cycle",
    "C28_reported"
   ],
   "note": ""
  },
  {
   "property": "C29",
   "status": "proved",
   "theorems": [
    "C29_added_once",
    "C29_missing_rejected",
    "C29_repeated_rejected",
    "C29_not_rejected",
    "C29_star",
    "C29_operators"
   ],
   "note": ""
  },
  {
   "property": "C30",
   "status": "partial",
   "theorems": [
    "C30_refuted",
    "C30_exact",
    "C30_starred_step_partial",
    "C30_relative_order"
   ],
   "note": "False for steps starred only through a composite (witness: *(a >> b) under a false condition runs). Exact characterisation proved for all flows; the documented rule proved for steps that are starred themselves; relative order proved in all cases."
  },
  {
   "property": "C31",
   "status": "proved",
   "theorems": [
    "C31_sequences_supported",
    "C31_weaker_rejected"
   ],
   "note": ""
  },
  {
   "property": "C32",
   "status": "proved",
   "theorems": [
    "C32_same_flow",
    "C32_split"
   ],
   "note": ""
  },
  {
   "property": "C33",
   "status": "proved",
   "theorems": [
    "C33_selection",
    "C33_cycle_diverges"
   ],
   "note": ""
  },
  {
   "property": "C34",
   "status": "partial",
   "theorems": [
    "C34_refuted",
    "C34_ids_refuted",
    "C34_start_refuted",
    "C34_shown_partial",
    "C34_once_partial",
    "C34_exact"
   ],
   "note": "False: a sequence written with and without stars is shown twice, mermaid ids of different steps can coincide, and a step may be called start (witnesses). As sets the shown nodes and edges are proved exactly right; each once under the stated conditions.  C34_exact: exactly when the node names drawn are distinct, and exactly when the edges drawn are (edges written two ways, equal names without predecessor or successor, a lone step end beside a lone step start)."
  },
  {
   "property": "C35",
   "status": "proved",
   "theorems": [
    "C35_sequencer"
   ],
   "note": ""
  },
  {
   "property": "C36",
   "status": "partial",
   "theorems": [
    "C36_history",
    "C36_exact",
    "C36_affected",
    "C36_partial",
    "C36_flows_reach",
    "C36_resources_reach",
    "C36_refuted",
    "C36_names_refuted"
   ],
   "note": "False in general: propagation only looks one level up for resources (three-level witness) and enabling/disabling by name does not propagate (witness). Every touched interrupt is proved right after any operation; the whole tree is proved right after any history of operations that reach everything, which includes all propagating flow switches and resource switches on two-level trees. C36_history: after any operations whatsoever an enable field shows what the rule gave when the last operation that touched the interrupt had been performed.  C36_exact: after any history the hardware is right about an interrupt exactly if the rule gives now what it gave when the interrupt was last touched (or initialised)."
  },
  {
   "property": "C37",
   "status": "partial",
   "theorems": [
    "C37_frame",
    "C37_partial",
    "C37_refuted",
    "C37_exact",
    "C37_init_writes"
   ],
   "note": "The frame, write-minimality and shadow claims are proved for every operation but init (C37_frame); a second init forgets the hardware contents (C37_refuted). After one init from consistent hardware the shadow is proved right for every history without further init. C37_exact says when the shadow of a register is right after any operation, init included; C37_init_writes says which registers init writes."
  },
  {
   "property": "C38",
   "status": "proved",
   "theorems": [
    "C38_restore",
    "C38_reachable"
   ],
   "note": ""
  },
  {
   "property": "C39",
   "status": "proved",
   "theorems": [
    "C39_guarded",
    "C39_exact",
    "C39_clear_place",
    "C39_manager"
   ],
   "note": ""
  },
  {
   "property": "C40",
   "status": "partial",
   "theorems": [
    "C40_exact",
    "C40_partial",
    "C40_short",
    "C40_options",
    "C40_bytes",
    "C40_numbers",
    "C40_lossless",
    "C40_refuted",
    "C40_unscoped_refuted",
    "C40_char_enum_refuted",
    "C40_template_refuted",
    "C40_short_refuted"
   ],
   "note": "False in five ways, each with a witness: true is shown as -1, a negative enumerator of an unscoped enumeration is looked up as unsigned, a scoped enumeration over char is never named, a template in an enumeration's name makes the decoder raise, and calls without arguments lose severity, module, unit and the id above 28 bits. C40_exact gives the decoded message for every call with plain type names; C40_partial proves the property outside the witnessed cases; C40_lossless shows no argument bits are lost on the wire."
  },
  {
   "property": "C41",
   "status": "partial",
   "theorems": [
    "C41_partial",
    "C41_packets",
    "C41_refuted",
    "C41_version_stops",
    "C41_exact",
    "C41_short64"
   ],
   "note": "Proved for every sequence of catalogued log calls. False once a build-version packet is in the stream: the decoder raises there (C41_refuted, C41_version_stops for all versions). C41_exact: any sequence of calls and build versions decodes to the calls before the first version, and raises exactly if there is one."
  },
  {
   "property": "C42",
   "status": "partial",
   "theorems": [
    "C42_exact",
    "C42_partial",
    "C42_capacity",
    "C42_refuted"
   ],
   "note": "Proved for strings below 65528 bytes, with the smallest format; longer strings have their length cut to 16 bits (witness, and C42_exact says what a reader gets)."
  },
  {
   "property": "C43",
   "status": "proved",
   "theorems": [
    "C43_stable",
    "C43_distinct",
    "C43_build",
    "C43_new",
    "C43_order"
   ],
   "note": ""
  },
  {
   "property": "C44",
   "status": "partial",
   "theorems": [
    "C44_refuted",
    "C44_swap_refuted",
    "C44_partial",
    "C44_exact",
    "C44_which",
    "C44_modules"
   ],
   "note": "False: for every bounded hash two messages without arguments share a key and one is lost (C44_refuted, pigeonhole), and for every hash text and arguments can change places (C44_swap_refuted). C44_partial proves the property for messages with equal text or equal arguments and a hash without collisions on the strings concerned. C44_exact: no message of a listing is lost exactly if messages with one key are the same, for any key; C44_which: of the messages with a common key exactly the last stays."
  },
  {
   "property": "C45",
   "status": "partial",
   "theorems": [
    "C45_exact",
    "C45_partial",
    "C45_refuted"
   ],
   "note": "False with two files: dict.update replaces the first file's list (C45_refuted). C45_exact: the last file with the list is used alone; C45_partial: its messages keep their ids."
  },
  {
   "property": "C46",
   "status": "partial",
   "theorems": [
    "C46_exact",
    "C46_ends",
    "C46_partial",
    "C46_refuted",
    "C46_scope_refuted",
    "C46_characters"
   ],
   "note": "False with two different enumerators in one text (all get the first one's name), and namespaced enumerations and negative values are never matched. C46_exact says what comes out for every text of plain mentions, C46_ends that the loop ends on every text, C46_partial that one name throughout comes out right."
  },
  {
   "property": "C47",
   "status": "proved",
   "theorems": [
    "C47_split",
    "C47_characters"
   ],
   "note": ""
  },
  {
   "property": "C48",
   "status": "proved",
   "theorems": [
    "C48_accepts",
    "C48_unexported",
    "C48_builds",
    "C48_determined"
   ],
   "note": ""
  },
  {
   "property": "C49",
   "status": "partial",
   "theorems": [
    "C49_exact",
    "C49_partial",
    "C49_refuted",
    "C49_move_only"
   ],
   "note": "False as to the arguments: a callback with a reference parameter changes what later callbacks see (C49_refuted). C49_exact gives every call with the arguments it sees, for all configurations; C49_partial proves the property for callbacks that leave their arguments alone."
  },
  {
   "property": "C50",
   "status": "partial",
   "theorems": [
    "C50_by_type",
    "C50_by_name",
    "C50_exact",
    "C50_frame",
    "C50_after",
    "C50_refuted"
   ],
   "note": "By type proved in full. By name: a call with another return type than the service's compiles and panics after init too (C50_refuted); C50_by_name proves the matching-type case when exported names are unique. C50_exact says when a call by name panics."
  },
  {
   "property": "C51",
   "status": "proved",
   "theorems": [
    "C51_and",
    "C51_laws",
    "C51_nested"
   ],
   "note": ""
  },
  {
   "property": "C52",
   "status": "proved",
   "theorems": [
    "C52_order",
    "C52_effects"
   ],
   "note": ""
  },
  {
   "property": "C53",
   "status": "partial",
   "theorems": [
    "C53_identity_laws",
    "C53_complement_laws",
    "C53_de_morgan_law",
    "C53_absorption_partial",
    "C53_absorption_refuted"
   ],
   "note": "Absorption fails for m1 = not p (witness) and is proved for every leaf m1; the other laws are proved."
  },
  {
   "property": "C54",
   "status": "partial",
   "theorems": [
    "C54_lt_and_gt",
    "C54_lt_or_gt",
    "C54_lt_and_lt",
    "C54_lt_or_lt",
    "C54_eq_and_eq",
    "C54_refuted",
    "C54_exact"
   ],
   "note": "False for the largest b of an unsigned type of 32 or 64 bits, where b + 1 wraps to 0 and nothing is simplified (C54_refuted). C54_exact: what comes out for all constants; the other theorems prove the rest of the property."
  },
  {
   "property": "C55",
   "status": "proved",
   "theorems": [
    "C55_rename",
    "C55_accepts"
   ],
   "note": ""
  },
  {
   "property": "C56",
   "status": "proved",
   "theorems": [
    "C56_capacity"
   ],
   "note": ""
  },
  {
   "property": "C57",
   "status": "partial",
   "theorems": [
    "C57_refuted",
    "C57_composite_refuted",
    "C57_exact",
    "C57_reference",
    "C57_partial"
   ],
   "note": "False as stated: a step added without * is accepted with null functions, and starring a composite default-constructs its steps (C57_refuted, C57_composite_refuted). C57_exact says what each node holds; C57_partial proves the property when every step is starred by itself."
  },
  {
   "property": "C58",
   "status": "partial",
   "theorems": [
    "C58_partial",
    "C58_exact",
    "C58_refuted"
   ],
   "note": "False for interrupts without an enable field (witness runs the flow). Proved for interrupts with one, through every later history that does not turn the resource on. C58_exact: in terms of what is run, which interrupts are serviced when the resource is off."
  },
  {
   "property": "C59",
   "status": "partial",
   "theorems": [
    "C59_partial",
    "C59_exact",
    "C59_refuted"
   ],
   "note": "False when a top-level interrupt has an enable field: an inactive one is marked as enabled and its bit written (witness). Proved when top-level interrupts have no enable field. C59_exact: the registers init writes and the bits in them, whatever the top-level interrupts."
  },
  {
   "property": "C60",
   "status": "partial",
   "theorems": [
    "C60_partial",
    "C60_refuted",
    "C60_exact"
   ],
   "note": "False when the message also occurs without the explicit id later in the input (witness). Proved when every occurrence has it. C60_exact: the last occurrence of a message decides, for every input."
  },
  {
   "property": "C61",
   "status": "partial",
   "theorems": [
    "C61_exact",
    "C61_partial",
    "C61_refuted"
   ],
   "note": "False for one text with different tags or named arguments: only the last symbol is defined (witness for every hash). C61_exact: exactly the last of each key; C61_partial: all, when equal keys mean equal symbols."
  },
  {
   "property": "C62",
   "status": "partial",
   "theorems": [
    "C62_partial",
    "C62_refuted",
    "C62_empty_refuted",
    "C62_unsigned_exact",
    "C62_signed_exact",
    "C62_exact",
    "C62_same_encoding"
   ],
   "note": "False for the empty text (the generator stops) and for every non-ASCII character below U+0800 (stops or garbles). Proved for every non-empty ASCII text. C62_exact: over all of Unicode, the text comes back exactly if it is ASCII; C62_unsigned_exact and C62_signed_exact say what comes otherwise."
  },
  {
   "property": "C63",
   "status": "proved",
   "theorems": [
    "C63_modules",
    "C63_limit"
   ],
   "note": ""
  },
  {
   "property": "C64",
   "status": "partial",
   "theorems": [
    "C64_partial",
    "C64_exact",
    "C64_refuted"
   ],
   "note": "False for an extra input that has a list of messages: it replaces the build's (witness for all catalogs). Proved for members the extra inputs do not have. C64_exact: for every list of extra inputs each member is that of the last input that has it."
  },
  {
   "property": "C65",
   "status": "partial",
   "theorems": [
    "C65_respelled",
    "C65_conditional",
    "C65_partial",
    "C65_refuted"
   ],
   "note": "False under a runtime condition, where an extension by name never compiles (C65_refuted). C65_partial: elsewhere it means the same service. C65_respelled: outside runtime conditions writing an extension by type instead of by name changes nothing in what is built; C65_conditional: under a runtime condition, however deep, one by name is rejected."
  },
  {
   "property": "C66",
   "status": "partial",
   "theorems": [
    "C66_partial",
    "C66_refuted",
    "C66_exact"
   ],
   "note": "False for function pointers (null after value-initialisation) and callables with state (rejected) (C66_refuted). Proved for stateless callables under any nesting. C66_exact: what becomes of every callback under every list of conditions, as equivalences."
  },
  {
   "property": "C67",
   "status": "proved",
   "theorems": [
    "C67_whole",
    "C67_complete",
    "C67_ends",
    "C67_everywhere"
   ],
   "note": ""
  },
  {
   "property": "C68",
   "status": "partial",
   "theorems": [
    "C68_refuted",
    "C68_types_refuted",
    "C68_partial",
    "C68_when",
    "C68_exact"
   ],
   "note": "False: a writer from the environment is called outside any critical section, and destinations of different types exclude one another not at all (witness runs). Proved for one thread; C67 has the case of one destination type per device for any number of threads. C68_exact: the packets stay whole if and only if any two writes from different threads share a critical section (C68_when is the proof that they then do, for any finite number of threads)."
  },
  {
   "property": "C69",
   "status": "partial",
   "theorems": [
    "C69_exact",
    "C69_partial",
    "C69_refuted"
   ],
   "note": "False: the writer with its destinations is copied for each call, so changes are lost (witness). C69_exact says what every packet sees; proved for destinations that do not change."
  },
  {
   "property": "C70",
   "status": "partial",
   "theorems": [
    "C70_partial",
    "C70_lines",
    "C70_time",
    "C70_layout",
    "C70_level",
    "C70_refuted",
    "C70_place_exact"
   ],
   "note": "False for iterators that carry their own position (each part overwrites the one before). Proved for inserters; C70_lines and C70_time say that lines and times can be read back. C70_place_exact: through an iterator that carries its own position every part of every line is written from that position, so each place holds the last character written there."
  },
  {
   "property": "C71",
   "status": "partial",
   "theorems": [
    "C71_settings",
    "C71_defaults",
    "C71_accepts",
    "C71_refuted"
   ],
   "note": "Lookup proved for every accepted source, and acceptance characterised exactly; a declaration directly in the body of CIB_WITH_LOG_ENV is not accepted (C71_refuted)."
  },
  {
   "property": "C72",
   "status": "partial",
   "theorems": [
    "C72_assert_exact",
    "C72_fatal",
    "C72_places",
    "C72_few",
    "C72_assert_partial",
    "C72_refuted"
   ],
   "note": "CIB_FATAL proved for all messages. False for assertions on expressions with braces, whose text is taken as a format string (C72_refuted); proved for expressions without an opening brace. C72_assert_exact: assertions with any text."
  },
  {
   "property": "C73",
   "status": "partial",
   "theorems": [
    "C73_exact",
    "C73_logger",
    "C73_partial",
    "C73_refuted"
   ],
   "note": "The logger is right in all cases (C73_logger). False for loggers without log_version: the text is logged in the global environment (witness). Proved for loggers that have log_version. C73_exact: what every logger gets."
  },
  {
   "property": "C74",
   "status": "proved",
   "theorems": [
    "C74_flavor",
    "C74_frame"
   ],
   "note": ""
  },
  {
   "property": "C75",
   "status": "partial",
   "theorems": [
    "C75_exact",
    "C75_partial",
    "C75_flow_partial",
    "C75_refuted"
   ],
   "note": "False when the environment set is the library's own: it counts as not set (witness). Proved otherwise. C75_exact: a setting equal to the library's environment counts as none, and then the first of the settings is taken."
  },
  {
   "property": "C76",
   "status": "partial",
   "theorems": [
    "C76_reads",
    "C76_unambiguous",
    "C76_chains",
    "C76_same_text_partial",
    "C76_same_text_refuted",
    "C76_callback"
   ],
   "note": "Reading, uniqueness of the reading and the callback's matcher proved in full. Same text, same answers is false for unnamed predicates and a predicate called \"true\" (witnesses); proved for plain names that tell the leaves apart."
  },
  {
   "property": "C77",
   "status": "proved",
   "theorems": [
    "C77_explains",
    "C77_because",
    "C77_collapsed"
   ],
   "note": ""
  },
  {
   "property": "C78",
   "status": "proved",
   "theorems": [
    "C78_reads",
    "C78_written",
    "C78_text",
    "C78_leading_zero"
   ],
   "note": ""
  },
  {
   "property": "C79",
   "status": "proved",
   "theorems": [
    "C79_no_drift",
    "C79_many"
   ],
   "note": ""
  },
  {
   "property": "C80",
   "status": "partial",
   "theorems": [
    "C80_exact",
    "C80_partial",
    "C80_refuted",
    "C80_conversions"
   ],
   "note": "False when a {:spec} comes after a {} (conversions are assigned in the wrong order) and when the text has a percent sign (not doubled). C80_exact gives the output for every format string; C80_partial proves the property outside these two cases; C80_conversions gives the conversion of every type."
  },
  {
   "property": "C81",
   "status": "partial",
   "theorems": [
    "C81_exact",
    "C81_partial",
    "C81_refuted"
   ],
   "note": "False: inside CDATA an & becomes &amp;, and a text with ]]> ends the section. C81_partial: right exactly for texts with neither; C81_exact says what a reader gets for every text."
  },
  {
   "property": "C82",
   "status": "partial",
   "theorems": [
    "C82_partial",
    "C82_exact",
    "C82_when",
    "C82_refuted"
   ],
   "note": "False for a text with a newline: what follows it becomes code. Proved for texts of one line. C82_exact gives the code for any text (the lines of the text after the first that are not comments, then the specialisation) and C82_when says exactly when the specialisation is all."
  },
  {
   "property": "C83",
   "status": "partial",
   "theorems": [
    "C83_exact",
    "C83_partial",
    "C83_refuted"
   ],
   "note": "False with two enumeration arguments: only the last is named. C83_exact for all argument lists; C83_partial for one."
  },
  {
   "property": "C84",
   "status": "partial",
   "theorems": [
    "C84_exact",
    "C84_own",
    "C84_partial",
    "C84_refuted"
   ],
   "note": "This build's names always win (C84_own, C84_exact). False with two extra inputs: the first one's enumerations are lost. Proved with one."
  },
  {
   "property": "C85",
   "status": "partial",
   "theorems": [
    "C85_partial",
    "C85_refuted",
    "C85_others",
    "C85_exact"
   ],
   "note": "False for bool (prints -1) and char (prints b'a'). Proved for integers. C85_exact: the decoder's line for values of any kind, and for too few and too many of them."
  },
  {
   "property": "C86",
   "status": "partial",
   "theorems": [
    "C86_partial",
    "C86_refuted",
    "C86_conditional_refuted"
   ],
   "note": "Proved for headers whose conditional blocks are closed in their file and include no library header, and a root with text before its first include. Refuted: a root that includes nothing is printed twice; a library header included first in a block whose condition is false is lost."
  },
  {
   "property": "C87",
   "status": "partial",
   "theorems": [
    "C87_partial",
    "C87_refuted",
    "C87_only_partial",
    "C87_only_refuted"
   ],
   "note": "Proved under the same conditions (and, for nothing else, no include in a conditional block). Refuted: a root that starts with an include (place 0 counts as not set); the conditional include of stdx/tuple.hpp in log.hpp becomes unconditional."
  },
  {
   "property": "C88",
   "status": "partial",
   "theorems": [
    "C88_twice_exact",
    "C88_ends",
    "C88_once_partial",
    "C88_once_refuted"
   ],
   "note": "Ends on every include graph. Lines at most once if the root includes anything; refuted otherwise. C88_twice_exact: a root that includes nothing has each of its lines printed twice."
  },
  {
   "property": "C89",
   "status": "proved",
   "theorems": [
    "C89_log",
    "C89_silent",
    "C89_lines"
   ],
   "note": "Proved for all flows and states; a step's condition is evaluated when its turn comes."
  },
  {
   "property": "C90",
   "status": "partial",
   "theorems": [
    "C90_text_partial",
    "C90_exact",
    "C90_flow_partial",
    "C90_space_refuted",
    "C90_keyword_refuted"
   ],
   "note": "Proved for names that are DOT identifiers and not keywords. Refuted for names with a space (read as two nodes) and for keywords (unreadable). C90_exact: the text reads as the drawing if and only if all names are such identifiers."
  },
  {
   "property": "C91",
   "status": "partial",
   "theorems": [
    "C91_text_partial",
    "C91_exact",
    "C91_ids_refuted",
    "C91_always_refuted"
   ],
   "note": "Proved for names of letters, digits, spaces and underscores that do not differ only in the last two. Refuted otherwise: 'a b' and 'a_b' are one node; a condition called 'always' is not drawn. C91_exact: where every node has an edge, the picture is right if and only if no two names differ only in spaces and underscores."
  },
  {
   "property": "C92",
   "status": "partial",
   "theorems": [
    "C92_partial",
    "C92_refuted",
    "C92_exact"
   ],
   "note": "Proved if no declared environment is the library's own; refuted otherwise (such a declaration is ignored); exact characterisation."
  },
  {
   "property": "C93",
   "status": "partial",
   "theorems": [
    "C93_exact",
    "C93_characters",
    "C93_partial",
    "C93_refuted",
    "C93_accented"
   ],
   "note": "Exact for every listing (C93_exact). False when a text is empty (int of the empty string raises) or has a character whose code is printed negative; proved for all other listings. Argument types must have balanced brackets and not contain the text of a catalog symbol."
  },
  {
   "property": "C94",
   "status": "proved",
   "theorems": [
    "C94_types",
    "C94_definitions"
   ],
   "note": "Proved for all items that can be read; types are compared token by token, with static_cast<char>(n) equal to (char)n."
  },
  {
   "property": "C95",
   "status": "proved",
   "theorems": [
    "C95_reads",
    "C95_others"
   ],
   "note": "Proved for all encodings whose underlying type has no comma followed by a space."
  },
  {
   "property": "C96",
   "status": "proved",
   "theorems": [
    "C96_declared",
    "C96_order",
    "C96_refuses"
   ],
   "note": "Proved for enumerations with one underlying type each. A class around an enumeration is declared as a namespace, as in the code."
  },
  {
   "property": "C97",
   "status": "proved",
   "theorems": [
    "C97_refines",
    "C97_accepts",
    "C97_shared",
    "C97_unaffected"
   ],
   "note": "Proved for 8, 16 and 32 bit elements (64-bit elements: see C10). Straight-line programs; all storages of a program have one element type; definitions must lie within their storage (see C12 for the library's own check)."
  },
  {
   "property": "C98",
   "status": "proved",
   "theorems": [
    "C98_untouched",
    "C98_own_storage",
    "C98_const",
    "C98_names"
   ],
   "note": "Proved for all element types and definitions."
  },
  {
   "property": "C99",
   "status": "partial",
   "theorems": [
    "C99_signed_refuted",
    "C99_reads",
    "C99_reads_back_partial",
    "C99_can_hold"
   ],
   "note": "Refuted: extract does not extend the sign, so -1 in a 4-bit field of type int8 reads 15. Exactly which values read back is proved: those >= 0 that fit, and all when the field is as wide as its type."
  },
  {
   "property": "C100",
   "status": "partial",
   "theorems": [
    "C100_wide_refuted",
    "C100_read_partial",
    "C100_write_partial",
    "C100_read_exact",
    "C100_write_exact"
   ],
   "note": "Proved for integers of 8, 16 and 32 bits. Refuted for 64 bits (as C10). C100_read_exact, C100_write_exact: integers of any width, 64 bits included."
  },
  {
   "property": "C101",
   "status": "partial",
   "theorems": [
    "C101_declared_order_refuted",
    "C101_values_partial",
    "C101_declared_order_partial",
    "C101_exact"
   ],
   "note": "Refuted: the order is that of the fields' first bits. Proved: the values and this order, and the order of declaration for messages declared in ascending order. C101_exact: the order is that of the declaration if and only if the fields are declared in ascending order."
  },
  {
   "property": "C102",
   "status": "partial",
   "theorems": [
    "C102_compiles",
    "C102_meaning_refuted",
    "C102_one_constant_partial",
    "C102_plain_partial",
    "C102_callbacks_partial"
   ],
   "note": "Which conditions compile is proved. The meaning is refuted for != against several constants (as C02: != 3 and != 5 accepts 5) and proved when each name has one constant under == and !=, and for all conditions without negation."
  },
  {
   "property": "C103",
   "status": "partial",
   "theorems": [
    "C103_exact",
    "C103_partial",
    "C103_refuted",
    "C103_link_refuted",
    "C103_explicit",
    "C103_compile_time"
   ],
   "note": "Refuted for calls without arguments, whose line has neither level nor module and keeps doubled braces; and for programs with two messages that differ only in a tag, of which one is undefined at link time. Proved for all other calls with integers and enumerators as arguments (C103_partial), with the line of the calls without arguments given exactly (C103_exact). Truth values, characters and fractions: see C41 and C42. C103_explicit: explicit ids are kept. C103_compile_time: enumerators formatted at compile time are shown by name."
  },
  {
   "property": "C104",
   "status": "proved",
   "theorems": [
    "C104_readable",
    "C104_older",
    "C104_edited"
   ],
   "note": "Proved for any number of later builds that do not forget; C104_forgotten shows that this hypothesis is needed. Enumerators have the names of the last build. C104_older and C104_edited: with the catalog from before the build, or one whose text was edited to have too many places, the calls up to the first unknown one are shown and the decoder stops there."
  },
  {
   "property": "C105",
   "status": "partial",
   "theorems": [
    "C105_exact",
    "C105_partial",
    "C105_calls",
    "C105_ids",
    "C105_accepts",
    "C105_refuted",
    "C105_module_refuted"
   ],
   "note": "Refuted for a message logged in one place with a string id and in another without, and for a module so: one of the two has no definition and the program does not link. Refuted also for calls without arguments (C103). C105_partial: one line with level and module in force for every other call; C105_exact gives the lines of calls without arguments; C105_ids: the ids in force are in the catalog; C105_accepts: which sources compile. C105_calls: level, unit, module, ids and tag of the call and of its symbols are those in force, with the defaults."
  },
  {
   "property": "C106",
   "status": "proved",
   "theorems": [
    "C106_any_time",
    "C106_exact"
   ],
   "note": "Proved with the lines of C105_exact. The critical section of a destination's type is taken to exclude other threads (concurrency policy)."
  },
  {
   "property": "C107",
   "status": "partial",
   "theorems": [
    "C107_partial",
    "C107_exclusive",
    "C107_rule",
    "C107_alone",
    "C107_accepts",
    "C107_refuted"
   ],
   "note": "Refuted with dynamic_controller::reset, which is in no critical section: with an enable at the same time, an interrupt can stay on in the hardware with everything disabled (C107_refuted). Proved for all programs without reset (C107_partial, C107_rule, C107_exclusive); C107_alone: the accesses of one operation do what the operation of C36 does."
  },
  {
   "property": "C108",
   "status": "proved",
   "theorems": [
    "C108_runs",
    "C108_ends",
    "C108_compiles"
   ],
   "note": "C108_runs is a refinement: the model, which builds the flows (C27 to C34) and the nexus (C49 to C52), only does what the specification allows, which reads the configuration as written. C108_ends: the fuel is enough if services can be ranked; C108_compiles: then every flow has an allowed order."
  },
  {
   "property": "C109",
   "status": "proved",
   "theorems": [
    "C109_boot",
    "C109_no_panic",
    "C109_alive"
   ],
   "note": ""
  },
  {
   "property": "C110",
   "status": "proved",
   "theorems": [
    "C110_orders",
    "C110_runs"
   ],
   "note": "C110_needed: without independence the result depends on the containers."
  },
  {
   "property": "C111",
   "status": "proved",
   "theorems": [
    "C111_accepts",
    "C111_services",
    "C111_runs"
   ],
   "note": "The order of the callbacks of a service does follow that of the components, and a name extended that means two services means the one exported first (C111_needed)."
  },
  {
   "property": "C112",
   "status": "proved",
   "theorems": [
    "C112_active",
    "C112_served"
   ],
   "note": "With C39, which says what is served."
  },
  {
   "property": "C113",
   "status": "proved",
   "theorems": [
    "C113_runs",
    "C113_ends"
   ],
   "note": "A refinement: the model, which builds the nexus, composes and simplifies the matchers and builds the indices, only does what the specification allows, which reads the configuration and matchers as written. C113_needed shows why pointers under conditions and several != are excluded. is_match of an indexed service is only promised not to miss a callback."
  },
  {
   "property": "C114",
   "status": "proved",
   "theorems": [
    "C114_indexing"
   ],
   "note": "C114_needed: is_match differs."
  },
  {
   "property": "C115",
   "status": "proved",
   "theorems": [
    "C115_values"
   ],
   "note": "C13 and C99 composed with C113."
  },
  {
   "property": "C116",
   "status": "partial",
   "theorems": [
    "C116_collateral_reads_back_partial",
    "C116_exact",
    "C116_ampersand_refuted"
   ],
   "note": "Refuted for texts with an ampersand (escaped in a CDATA section, where readers do not undo it); proved for texts without it, without ]]> and carriage returns (C116_needed_cr and C116_needed_closed show these are needed), and C116_exact says what the document is with ampersands. The reader is a specification written from the XML standard."
  },
  {
   "property": "C117",
   "status": "partial",
   "theorems": [
    "C117_exact",
    "C117_alone_exact",
    "C117_messages_are_found_by_id_partial",
    "C117_wide_ids_refuted"
   ],
   "note": "Refuted for ids of 2^28 and more, which the mask cuts; proved below. C117_exact: what is found for any id; C117_alone_exact: a message is found alone exactly if no other has the same low 28 bits."
  },
  {
   "property": "C118",
   "status": "partial",
   "theorems": [
    "C118_enums_are_found",
    "C118_exact",
    "C118_distinct_enums_refuted"
   ],
   "note": "Refuted where different enumerations have one qualified name (unnamed ones, or local to overloads): they are merged. Everything else is proved in C118_enums_are_found. C118_exact: every enumerator is found with its value if and only if no name of an enumeration has an enumerator name with two values."
  },
  {
   "property": "C119",
   "status": "partial",
   "theorems": [
    "C119_source_defines_each_once_partial",
    "C119_line_feed_refuted",
    "C119_exact"
   ],
   "note": "Refuted for texts with line feeds (cf. C82): the rest of the text is outside the comment. Proved for one-line texts, and symbols that are determined by text and arguments (C43, C103). C119_exact: for any texts, each definition is preceded by exactly the non-empty, non-comment lines of its text after the first."
  },
  {
   "property": "C120",
   "status": "partial",
   "theorems": [
    "C120_files_agree_partial",
    "C120_exact",
    "C120_arguments",
    "C120_refuted",
    "C120_enumerations"
   ],
   "note": "Proved under the conditions of C103 (consistent catalog, keys that separate), C116 and C117 (texts and ids that the XML carries) and one-line texts. Refuted: an ampersand in a text is doubly escaped in the XML file, so it gives another text than the two others. C120_enumerations: the enumerations of the XML file, their numbers, and which argument each message's lookup names.  C120_exact: without any condition on ampersands the C++ and JSON files agree, and the XML file gives a message the same text exactly if its text has no ampersand."
  },
  {
   "property": "C121",
   "status": "partial",
   "theorems": [
    "C121_failing_runs_partial",
    "C121_failing_runs_refuted",
    "C121_exact"
   ],
   "note": "Refuted: the C++ file is replaced before the module limit is checked, and emptied before an enumeration in an anonymous namespace is found; the JSON file is replaced before an argument is found not to be understood. Partial: no other file, and never the XML file, changes in a run that fails. C121_exact: what a run that fails leaves of every file."
  },
  {
   "property": "C122",
   "status": "proved",
   "theorems": [
    "C122_tables_are_exact",
    "C122_built_service_dispatches"
   ],
   "note": "The condition is only that the build succeeds (C123 says when) and that constants and values are of the field's type."
  },
  {
   "property": "C123",
   "status": "partial",
   "theorems": [
    "C123_when_it_builds",
    "C123_builds_partial",
    "C123_builds_refuted"
   ],
   "note": "Refuted: 34 callbacks for single bits of a 64-bit field, and 66 constants of a 32-bit field, need a hash of 31 bits, whose table is too large to declare. Proved for fields of at most 16 bits and for at most three constants; C123_when_it_builds is an exact criterion."
  },
  {
   "property": "C124",
   "status": "partial",
   "theorems": [
    "C124_linear",
    "C124_select",
    "C124_select_lt_partial",
    "C124_select_lt_refuted",
    "C124_select_lt_exact"
   ],
   "note": "Equality and linear lookups are proved. The order is refuted for a negative and a non-negative key (compared as unsigned by the assembly) and proved for keys of the same sign; nothing in the library uses the order. C124_select_lt_exact: for which keys and processors the order is right."
  },
  {
   "property": "C125",
   "status": "partial",
   "theorems": [
    "C125_rejected_partial",
    "C125_rejected_refuted"
   ],
   "note": "Refuted three ways: callbacks that accept nothing are let through; callbacks with one product term that accepts nothing are rejected though another accepts; != is misjudged (C02). Partial: what is rejected has a product term that accepts nothing, for matchers without != and not."
  },
  {
   "property": "C126",
   "status": "proved",
   "theorems": [
    "C126_conditions",
    "C126_fields"
   ],
   "note": "For conditions on the message's own field types; C126_needed shows that with a field type the message has moved, an array and a view of it give different answers. Elements of at most 32 bits (C10)."
  },
  {
   "property": "C127",
   "status": "proved",
   "theorems": [
    "C127_sees",
    "C127_array",
    "C127_way",
    "C127_enters"
   ],
   "note": "C127_enters: making the parameter never goes out of bounds. An array taken as auto is a copy of the data. C127_way: which way the data is handed over, or that no callable takes it."
  },
  {
   "property": "C128",
   "status": "proved",
   "theorems": [
    "C128_plain",
    "C128_call",
    "C128_indexed"
   ],
   "note": "C128_call needs no condition at all on definitions and parameters."
  },
  {
   "property": "C129",
   "status": "partial",
   "theorems": [
    "C129_plain_partial",
    "C129_indexed_refuted",
    "C129_indexed_exact",
    "C129_indexed_partial"
   ],
   "note": "Plain services: proved for all data and programs. Refuted for indexed services, which choose the candidates before any callable runs and no longer test the indexed fields. C129_indexed_exact: the terms of the conditions in turn, equalities with index fields being asked of the data given at first and all else of what is there by then; C129_indexed_partial: the property, for the terms, where callables leave the index fields alone."
  },
  {
   "property": "C130",
   "status": "partial",
   "theorems": [
    "C130_indexed_partial",
    "C130_moved_refuted"
   ],
   "note": "Refuted when a condition names a field type by its place before msg::pack or relax moved it: conditions read it by name, the index in its old place; and for callables that change the message (C129). Proved for const data and fields of the message, under the conditions of C20."
  },
  {
   "property": "C131",
   "status": "partial",
   "theorems": [
    "C131_refuted",
    "C131_complement_refuted",
    "C131_cheaper",
    "C131_settles",
    "C131_settled_meaning",
    "C131_partial",
    "C131_double_negation",
    "C131_complement_partial",
    "C131_fields_partial"
   ],
   "note": "False with negations: not (a and b) or not b is simplified to not ((a and b) and b), then to not (a and b) (C131_refuted), and such an m makes m and not m stay as it is (C131_complement_refuted). Proved: each simplification gives the matcher back or a smaller one (C131_cheaper), so repeating it ends (C131_settles), with the same meaning; not not m is the twice simplified m (C131_double_negation); without written negations all of it holds (C131_partial, C131_fields_partial), and the complement laws hold wherever the simplification is final."
  },
  {
   "property": "C132",
   "status": "partial",
   "theorems": [
    "C132_exact",
    "C132_partial",
    "C132_types",
    "C132_refuted"
   ],
   "note": "Refuted: fields and flows with a name are shown by it alone, so fields of the same name in different registers are shown alike, and quotes in names are not escaped. C132_exact: texts are the same exactly if the configurations are, up to types shown alike, when what is shown of a type is one item of a list and names have no quotes; C132_partial: so the text tells the configuration where it tells the types."
  },
  {
   "property": "C133",
   "status": "proved",
   "theorems": [
    "C133_text",
    "C133_distinct",
    "C133_floating"
   ],
   "note": "For names and texts without braces, which would be part of the format, and storages of elements of at most 32 bits (C08). C133_floating: a field of a floating-point type makes the line be refused."
  },
  {
   "property": "C134",
   "status": "partial",
   "theorems": [
    "C134_exact",
    "C134_partial",
    "C134_refuted",
    "C134_bool_refuted",
    "C134_empty"
   ],
   "note": "Refuted: the format of a field is always {:x}, so the decoder raises an exception for an enumeration or a char, which it shows as text, and prints a true bool as 0x-1 (C134_bool_refuted). C134_exact says what the decoder prints for all types; C134_partial: the same line for plain integral types other than char, without true bools; C134_empty: also for messages without fields."
  },
  {
   "property": "C135",
   "status": "proved",
   "theorems": [
    "C135_chosen",
    "C135_order"
   ],
   "note": "C135_chosen: what every list of policies does; C135_order: lists with the same policies, at most one on each matter, do the same."
  },
  {
   "property": "C136",
   "status": "partial",
   "theorems": [
    "C136_exact",
    "C136_partial",
    "C136_refuted"
   ],
   "note": "Refuted: the part of a policy that says which interrupts are active (irqs_policy, no_irqs_policy) is never used, so a policy that makes none active starts them all. C136_exact: the registers show what the policy says of resources and flows, for every policy; C136_partial: the whole property for policies that make all interrupts active."
  },
  {
   "property": "C137",
   "status": "proved",
   "theorems": [
    "C137_missing",
    "C137_duplicate",
    "C137_weak",
    "C137_built"
   ],
   "note": "C137_duplicate is for descriptions in which a starred composite writes each step in one way (see C29)."
  },
  {
   "property": "C138",
   "status": "partial",
   "theorems": [
    "C138_exact",
    "C138_partial",
    "C138_refuted"
   ],
   "note": "Refuted: sequences that come after a cycle are listed too. C138_exact: what is listed, for all descriptions; C138_partial: all edges of cycles are listed, and only those when no edge leads away from a cycle."
  },
  {
   "property": "C139",
   "status": "proved",
   "theorems": [
    "C139_answered",
    "C139_after",
    "C139_sent",
    "C139_kept",
    "C139_round"
   ],
   "note": "The senders are those of another library, whose source is not at hand: what is assumed of incite_on and run_triggers is stated at the head of SendModel.v. One thread; no stop requests."
  },
  {
   "property": "C140",
   "status": "partial",
   "theorems": [
    "C140_exact",
    "C140_missing",
    "C140_partial",
    "C140_refuted"
   ],
   "note": "Refuted: --output is parsed and never used. C140_exact: what is printed and left on disk, for all command lines; C140_partial: the property without --output."
  },
  {
   "property": "C141",
   "status": "partial",
   "theorems": [
    "C141_partial",
    "C141_exact",
    "C141_lines",
    "C141_refuted"
   ],
   "note": "Refuted: a long of eight bytes of which four to seven are there is shown as a long of four bytes, without an error. C141_partial: the property for catalogs without such arguments; C141_exact, C141_lines: for all catalogs, only the last message can differ."
  },
  {
   "property": "C142",
   "status": "partial",
   "theorems": [
    "C142_partial",
    "C142_exact",
    "C142_override",
    "C142_refuted",
    "C142_module_max_refuted",
    "C142_shell_refuted",
    "C142_scope_refuted"
   ],
   "note": "Refuted: RESERVED_IDS 0 and MODULE_ID_MAX 0 are dropped since CMake takes 0 as false; characters of the shell are not quoted; variables of the caller leak into arguments that are not given. C142_exact: what the generator gets for all calls; C142_partial: the property without those."
  },
  {
   "property": "C143",
   "status": "partial",
   "theorems": [
    "C143_partial",
    "C143_no_headers",
    "C143_exact",
    "C143_refuted"
   ],
   "note": "Refuted: the headers of INPUT_HEADERS are not among the dependencies, so an edit of an enumeration leaves the catalog stale. C143_partial: the property for histories without edits of headers, C143_no_headers: for calls without headers; C143_exact: when the outputs are up to date."
  },
  {
   "property": "C144",
   "status": "partial",
   "theorems": [
    "C144_partial",
    "C144_exact",
    "C144_silent",
    "C144_refuted"
   ],
   "note": "Refuted: a name with a backslash before n is cut in two lines. C144_partial: the property for names without backslashes and line feeds; C144_exact: for all texts of such lines; C144_silent: nothing is shown. That compilers show a message in one line with those escapes, on the standard output of the build, is assumed."
  },
  {
   "property": "C145",
   "status": "partial",
   "theorems": [
    "C145_exact",
    "C145_contents",
    "C145_refuted",
    "C145_new_refuted",
    "C145_partial"
   ],
   "note": "Refuted: the ids are still taken from the stable catalogs, and new messages still avoid the ids there; only the old entries are left out. C145_exact: what is written; C145_contents: the property but for ids; C145_partial: the property when no message and no id outside the reserved ones is shared."
  },
  {
   "property": "C146",
   "status": "partial",
   "theorems": [
    "C146_transitive",
    "C146_bounds",
    "C146_extremes",
    "C146_ne_refuted",
    "C146_wrap_refuted",
    "C146_partial"
   ],
   "note": "C146_transitive: for any leaves with a transitive implication; C146_bounds and C146_extremes: never and always, for any leaves. Refuted for field matchers: f == 5 is below f != 6, which is equivalent to f != 5, but the ends are unordered; and in a 32-bit unsigned field f < 5 is below f <= 5, which is below f <= 0xffffffff, but the ends are unordered. C146_partial: field matchers with one constant per field for == and !=, and no <= or > against the greatest value of a type of at least 32 bits."
  },
  {
   "property": "C147",
   "status": "partial",
   "theorems": [
    "C147_seed",
    "C147_messages",
    "C147_modules",
    "C147_seed_refuted",
    "C147_order_refuted",
    "C147_partial"
   ],
   "note": "Refuted: with hashes without collisions the keys of messages can still collide (they are an exclusive or), so that a message is lost under one seed and not under another; and new messages with one text and different arguments are numbered in the order in which they are listed. C147_seed: nothing changes when the keys tell apart the same entries (C147_messages, C147_modules); C147_partial: the same ids and JSON entries in any order and with any such keys when new messages have different texts."
  },
  {
   "property": "C148",
   "status": "partial",
   "theorems": [
    "C148_refuted",
    "C148_names_refuted",
    "C148_exact",
    "C148_accepted",
    "C148_partial"
   ],
   "note": "Refuted: where a value and a name or field type are given together, the value is dropped and the field gets its default (C148_refuted), and names alone never compile (C148_names_refuted). C148_exact: what every call does; C148_accepted: which compile; C148_partial: the property for values only and for field types only."
  },
  {
   "property": "C149",
   "status": "partial",
   "theorems": [
    "C149_refuted",
    "C149_copy_refuted",
    "C149_exact",
    "C149_partial",
    "C149_assign",
    "C149_accepted",
    "C149_types"
   ],
   "note": "Refuted: what auto y = m[\"f\"_field] gives for a message that is not const is a reference, which shows the field's value at each use (C149_refuted), and m1[\"f\"_field] = m2[\"f\"_field] does not compile for variables of one type (C149_copy_refuted). C149_exact: what every program shows; C149_partial: the property for programs that do not write to a storage after taking a subscript of a non-const message on it; C149_assign, C149_accepted, C149_types: what compiles."
  },
  {
   "property": "C150",
   "status": "partial",
   "theorems": [
    "C150_refuted",
    "C150_accepts_refuted",
    "C150_outside_refuted",
    "C150_renamed_refuted",
    "C150_swapped_refuted",
    "C150_raw_exact",
    "C150_exact",
    "C150_partial",
    "C150_later",
    "C150_pack",
    "C150_relaxed",
    "C150_rename",
    "C150_made",
    "C150_accepted"
   ],
   "note": "Refuted: a matcher is about the field type it was given to. A field located after it is constrained (as in a relaxed_message) is never read of raw data: the condition is about 0 (C150_refuted, C150_accepts_refuted); a moved field is looked for where it was, even outside the data (C150_outside_refuted); a renamed one under its old name, which does not compile (C150_renamed_refuted) or reads the field that has the name now (C150_swapped_refuted). C150_raw_exact, C150_exact: what every condition is about; C150_partial: the property where no field moves (raw data) or changes name (messages) after its last constraint; C150_later, C150_pack, C150_relaxed, C150_rename: that this is what pack, relaxed_message and rename_field do; C150_made, C150_accepted: the other parts, and which definitions compile. docs/message.adoc:222-230 warns of packing and raw data only."
  },
  {
   "property": "C151",
   "status": "proved",
   "theorems": [
    "C151_env",
    "C151_layout",
    "C151_log",
    "C151_handler",
    "C151_indexed"
   ],
   "note": "C151_env: the answers of the environment of a message; C151_layout: environments have no effect on fields or on what compiles; C151_log: the line of a callback; C151_handler, C151_indexed: all lines of a handler for a message."
  },
  {
   "property": "C152",
   "status": "partial",
   "theorems": [
    "C152_modulo",
    "C152_partial",
    "C152_exact",
    "C152_back",
    "C152_sum",
    "C152_refuted",
    "C152_everywhere_refuted",
    "C152_valid",
    "C152_valid_refuted",
    "C152_locator",
    "C152_shift",
    "C152_pack",
    "C152_pack_refuted"
   ],
   "note": "Refuted: a byte index of 2^29 or more is another byte (C152_refuted, C152_everywhere_refuted), a place of 2^32 bits is accepted as one of none (C152_valid_refuted), and messages of more than 2^32 bits are packed over one another (C152_pack_refuted); views of such storages do not compile, as their bits are not a std::uint32_t. C152_modulo, C152_exact: every place is the one meant modulo 2^32, and which places are one; C152_partial: what ends inside 2^32 bits is the place meant, negative amounts included, wherever it was on the way; C152_back, C152_sum: shifts cancel and add up without condition; C152_valid, C152_locator: what is accepted and what is read; C152_shift, C152_pack: below 2^32 bits the library does what MessageModel does without bound."
  },
  {
   "property": "C153",
   "status": "partial",
   "theorems": [
    "C153_partial",
    "C153_exact",
    "C153_again",
    "C153_differ",
    "C153_ascii",
    "C153_refuted",
    "C153_keys_refuted",
    "C153_message",
    "C153_module",
    "C153_catalog",
    "C153_symbols",
    "C153_named_refuted"
   ],
   "note": "Refuted: the two halves of a character read back as the character (C153_refuted), a number and its text as keys of one dict read back as one (C153_keys_refuted), a named argument that ends more than one before it begins reads back changed (C153_named_refuted). C153_exact says for any value what is read; C153_partial: a value without these is read as it is; C153_again: what was read reads back as it is; C153_differ: different values have different files; C153_ascii: the text is printable ASCII; C153_message, C153_module, C153_catalog: messages, modules and enumerators as read_stable and the decoder get them; C153_symbols: what comes from symbols is such. Python's json module, which is not in the repository, is modelled from its source."
  },
  {
   "property": "C154",
   "status": "partial",
   "theorems": [
    "C154_partial",
    "C154_exact",
    "C154_reads",
    "C154_listed",
    "C154_refuted",
    "C154_version_refuted"
   ],
   "note": "Refuted: the command depends on the script and the two headers of the file set cib only, so after a change to any other header (C154_refuted), or a new tag (C154_version_refuted), the build keeps the old header, in which a compiler sees other code than in the library. C154_partial: it is right after any rounds of changes and builds of which each but the first writes a dependency or changes nothing the header looks at; C154_exact: exactly when a build makes it right; C154_reads: only the files it includes, directly or not, matter; C154_listed: right after all builds if only dependencies are edited. What the script makes of the headers is C86-C88."
  },
  {
   "property": "C155",
   "status": "proved",
   "theorems": [
    "C155_same",
    "C155_stable",
    "C155_distinct",
    "C155_modules"
   ],
   "note": "C155_same: a chain of builds through files is the chain of C43; C155_stable, C155_distinct and C155_modules carry C43 over. One stable file, no extra JSON inputs. The named arguments and tags are numbers in CatalogModel; the theorems hold for any numbering of them that is undone on those that occur. What builds do with damaged files is C156."
  },
  {
   "property": "C156",
   "status": "proved",
   "theorems": [
    "C156_cut",
    "C156_stops",
    "C156_longer",
    "C156_values"
   ],
   "note": "C156_cut and C156_stops for files that end early, C156_longer for text after the end; C156_values: of all values only numbers with two digits or more have texts with a beginning that loads."
  },
  {
   "property": "C157",
   "status": "partial",
   "theorems": [
    "C157_reread",
    "C157_stable",
    "C157_one",
    "C157_last",
    "C157_possible",
    "C157_output",
    "C157_dict_update",
    "C157_stable_update",
    "C157_update_agrees",
    "C157_stable_agrees",
    "C157_empty_files",
    "C157_pairs",
    "C157_update_exact",
    "C157_stops_without_a_dict_refuted"
   ],
   "note": "C157_reread: any JSON that loads, saved again, loads as the same value. C157_stable and C157_possible/C157_output are equivalences; C157_last, C157_one relate it to one file (C155). In these, files whose value is no object count as unreadable. dict.update takes more: C157_stops_without_a_dict_refuted gives a stable file with a list of pairs that is taken; C157_update_exact says exactly what is taken from stable files, C157_dict_update and C157_stable_update that the other theorems on stable files hold of the code where no file holds a list or a text. Pairs beginning with true, false or null are not modelled. For the extra inputs nothing is proved of files with lists or texts. That messages are lost when an extra input has a heading messages is C64; that only the last stable file counts is C45."
  },
  {
   "property": "C158",
   "status": "partial",
   "theorems": [
    "C158_tables",
    "C158_stops",
    "C158_size_refuted",
    "C158_size_partial",
    "C158_comma_refuted",
    "C158_colon_refuted"
   ],
   "note": "Times are right for all logs (C158_tables; C158_stops says exactly when there are no tables). False of sizes: an algorithm whose benchmark writes no size (mph.hpp and mph_pext.hpp write none; they are not in the list of benchmark/lookup/CMakeLists.txt at this commit) is shown with the size of the one before it (C158_size_refuted); C158_size_partial: a size written between the algorithm's name and its first time is shown. Also: times of 1000 ns and more, which the benchmark library writes with a comma, are left out without a word (C158_comma_refuted, under the assumption that float() refuses commas); names are cut at a colon (C158_colon_refuted)."
  },
  {
   "property": "C159",
   "status": "proved",
   "theorems": [
    "C159_cycle",
    "C159_ends",
    "C159_never",
    "C159_lookup",
    "C159_text"
   ],
   "note": "Proved. C159_ends is an equivalence; from it, C159_never: with --type uint16 and a size above 65536 the program never ends. C159_lookup uses C23."
  }
 ]
}