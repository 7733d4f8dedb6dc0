# Formal model of compile-time-init-build

Source modelled: `/repo` (intel/compile-time-init-build at the pinned commit),
read as text. The model is written in Gallina (Coq 8.16.1) in
`rocq/theories/`, logical name `Verif`.

* `properties.jsonl`: the properties, in words.
* `MANIFEST.json`: for each property its status, its theorems, and what is
  missing where it is partial.
* `seeded/LOG.jsonl`: the wrong programs the theorems were tried against. A
  theorem is listed as failed when its proof no longer goes through after the
  edit. That alone does not show that its statement became false: a script can
  also fail on a harmless rewording. In all entries
  but 22 a concrete case or a witness fails as well (many of these cases, the
  files `Cases*.v`, were written afterwards for this purpose): the edit changes what the model
  computes, though this does not show that every theorem listed became false. Of the 22, two edit
  a specification and 20 are harmless or cannot be told apart in the cases tried;
  these have a `remark`.

## Layout

Each area of the library has up to four kinds of file:

* `<Area>Model.v`: executable definitions. Each has a comment citing the source
  file and lines it models and the simplifications made.
* `<Area>Spec.v`: what is to be shown, stated without the functions of the model
  (its types of inputs and outputs are used).
* `<Area>Proofs*.v`: lemmas.
* `<Area>Props.v`: the theorems of the properties, `Print Assumptions` under
  each, and `Example`s of concrete cases that meet the hypotheses.

| area | code modelled | properties |
|------|---------------|------------|
| Match | `match/*.hpp` | C01, C03-C07, C53 |
| FieldMatchers | `msg/field_matchers.hpp`, `with_*` of `msg/field.hpp` | C02, C22, C54 |
| Field | bit-level `extract`/`insert` of `msg/field.hpp` | C08-C12 |
| Message | `msg/message.hpp`: construction, layout, pack, relaxed, extend | C13-C18, C55 |
| Handler | `msg/callback.hpp`, `handler*.hpp`, `indexed_*.hpp`, `detail/*.hpp` | C19-C21 |
| Lookup | `lookup/*.hpp` | C23-C26 |
| Flow | `flow/*.hpp`, `flow/dsl/*.hpp`, runtime conditions of `nexus` | C27-C34, C56 |
| Seq | `seq/*.hpp` | C35, C57 |
| Irq | `interrupt/*.hpp` | C36-C39, C58, C59 |
| Mipi | `log_binary/catalog/{mipi_messages,mipi_builder,arguments}.hpp`, `python/cib/{log_decode,mipi_messages}.py` | C40-C42 |
| Catalog | `python/cib/gen_str_catalog.py`: ids, keys, stable files | C43-C47, C60-C64 |
| Nexus | `nexus/*.hpp`, `cib/top.hpp` | C48-C52, C65, C66 |
| Log | `log/*.hpp`, `log_fmt/logger.hpp`, `log_binary/catalog/encoder.hpp`, `flow/log.hpp` | C67-C75 |
| Describe | `describe`, `describe_match` of matchers, log lines of callbacks | C76, C77 |
| Gen | `gen_str_catalog.py`: reserved ids, named arguments, C++, XML and JSON output | C78-C85 |
| Release | `tools/gen_release_header.py` | C86-C88 |
| Show | `flow/{func_list,viz_builder,log}.hpp`: logs and drawings | C89-C92 |
| Symbol | `gen_str_catalog.py`: symbols, regular expressions, generated types | C93-C96 |
| Access | owners, views, typed values, structured bindings, conditions by name of `msg/*.hpp` | C97-C102 |
| Chain | generator, link, encoder and decoder together | C103, C104 |
| Source | log calls of the source text, with threads, to the printed lines | C105, C106 |
| Conc | `interrupt/dynamic_controller.hpp`, reads of enable fields: several threads, access by access | C107 |
| Project | whole projects: nexus, flows, callback services, `cib/top.hpp`, interrupt service, as one program | C108-C112 |
| Dispatch | whole projects with message services: nexus, callbacks, matchers, indices and message storage as one program | C113-C115 |
| Output | the XML collateral of the generator, with ElementTree's serialisation, against an XML reader | C116-C117 |
| Run | whole runs of the generator: enumerations from clang's tree, the C++ file, the files written and the points of failure | C118-C121 |
| Baked | the lookup tables an indexed service is built with, its capacities and validators; the assembly of lookups on ARC | C122-C125 |
| Call | how the data a service is given reaches conditions, indices and callables: conversions to views and owners, what callables may change | C126-C130 |
| Wide | fields in elements of any width, 64 bits included: where they really are and when that is right (on the Field model) | C08, C10, C12 |
| Exact | exact characterisations of properties that hold in part (on the models of their areas) | C02, C15, C62, C72, C73, C75, C54, C65, C70, C85, C88, C100, C117, C124 |
| Stable | simplifying again, and the complement laws for composite matchers (on the Match and FieldMatchers models) | C131 |
| Config | the text of an interrupt configuration (manager::config, config_string_for) | C132 |
| Summary | the description of a message (message describe, field describe), printed as text or by the decoder; texts of formats are {:x}, enumerations have no format_as | C133, C134 |
| Policy | policies given to the dynamic controller (select_policy_t) and of its initialization (dynamic_init) | C135, C136 |
| Diagnose | compile-time errors of flows: texts of the static_asserts of graph_builder | C137, C138 |
| Send | msg::send and then_receive, over an assumed trigger scheduler (external library) | C139 |
| Decode | the decoding program from its command line: chunks of the input, output, logs cut short (json.load a parameter) | C140, C141 |
| Wrap | the CMake function gen_str_catalog: parsing of its arguments, the command it runs, the command line of the generator, when it runs again (the contents of outputs are a function of the inputs) | C142, C143 |
| Graph | the pipeline of generate_flow_graph from the output of the build to the file, and the message that flow::debug_builder makes the compiler show (awk, tac, sed, tail and head as functions of lines) | C144 |
| Forget | the switch FORGET_OLD_IDS against its documentation (theorems about the model of Catalog) | C145 |
| Order | operator<=> on matchers as an ordering (theorems about the models of Match and FieldMatchers) | C146 |
| Reproduce | runs of the generator that differ in the hash seed or in the order of the symbols (theorems about the model of Catalog) | C147 |
| Subscript | the arguments of set (values, names, field types) and the overload they choose; subscripts of messages and their proxies in programs with owners and views | C148, C149 |
| FieldOps | fields defined step by step by the aliases of field_t, what their matchers are about, the condition of a message on raw data and on messages | C150 |
| MsgEnv | environments of messages through every way of defining one, the environments of the log lines of callbacks and handlers | C151 |
| Place | the 32-bit arithmetic of places: index literals, units, shifts by any amount, validity, packs | C152 |
| Json | the text of JSON files: json.dump and json.load as called, messages, modules and enumerations as JSON | C153 |
| RelBuild | the CMake function gen_single_header as called for the library: when the release header is made again, the version put into it | C154 |
| File | builds that pass the catalog on as the text of a JSON file: JsonModel and CatalogModel together; files that were cut short or go on | C155–C156 |
| Many | builds that are given several stable files and several extra inputs as texts; files that hold no dict stop the build here | C157 |
| Update | what dict.update takes from files that hold no dict, for the stable files | C157 |
| Bench | the program that makes tables of the lookup benchmarks' log (float() and int() parameters) | C158 |
| Cycle | the program that makes the lookup benchmarks' data, and lookups made of it | C159 |
| Cases, CasesLookup, CasesText, CasesRun, CasesLog, CasesCall, CasesMore, CasesNexus, CasesBuild, CasesFiles, CasesLast | computed cases beside theorems of the areas named in them (tests, not proofs: some answers were worked out by hand or by brute force, many are the model's own output, recorded after a first guess was wrong or because the output is long; of those, the ones for C48, C103, C107, C108, C119 to C121, C144 and C158 were afterwards followed through the source by hand, the others, such as those for C113, C149 and C151, were not; they show that an edit changes the model, not that the model agrees with the code) | none |

## Conventions

* A theorem's name starts with the id of its property. Where the property is
  false of the code, `..._refuted` exhibits a witness in the model, and
  `..._partial` is the property under the hypotheses that were found to be
  needed; `..._exact`, where there is one, says what the code does in all cases.
* Compile-time computation on types (`mp11`, `stdx::tuple`) is computation on
  lists and inductive trees. A failed `static_assert` or constraint, and a Python
  exception, is `None` (or a named constructor where cases are told apart).
* Undefined behaviour (access out of bounds, oversized shift, signed overflow,
  null function pointer) is an outcome of its own, never a default value.
* Machine integers are `Z` or `N` with the wrapping written out.
* What the language or a library leaves open (the order in which a set is
  enumerated, which element `pop_back` returns, how unstable sorts break ties,
  what hash functions return, how threads interleave) is a parameter, and the
  theorems hold for all its values.
* No bound on sizes, depths, numbers of steps or lengths of histories.

## Trusted base

* Coq's kernel, with its virtual machine where a proof says `vm_compute`.
* Axioms: none. `Print Assumptions` says "Closed under the global context" for
  each of the 662 theorems listed below. (A listing of all axioms in the
  loaded libraries also names the parameters of the module
  `Coq.ssr.ssrunder.Under_rel` of the standard library, which `lia` and
  friends load; no theorem depends on them.)
* The reading of the source recorded in the comments of the `Model` files.
* The meaning of the specifications (`Spec` files and statements in `Props`).
* Assumed behaviour of code outside the repository, by area:
  * general: `stdx::bit_mask<T>(msb, lsb)` has ones exactly at `lsb..msb`;
    `stdx::bit_cast` is the identity on bits; `cx_set`, `cx_map`, `cx_multimap`
    are finite sets and maps, `cx_multimap::erase(k, v)` drops a key whose set
    becomes empty; `mp_sort` is stable; `mp_unique(_if)` and `to_unsorted_set`
    keep the first of equals; `to_sorted_set` removes equals, its order is open;
    `stdx::tuple::fold_right` takes the last element first; `std::sort` returns
    some sorted permutation; `stdx::gather_by` keeps the order within a group,
    the order of groups is open; `mp_any_of` looks at every element.
  * Message, Access: the 32-bit arithmetic on bit positions does not overflow;
    definitions of several messages have one element type per program; a view may
    be shorter than its storage.
  * Handler: the operands of `(0u | ... | cbs.handle())` are evaluated left to
    right; `stdx::bitset` is visited in ascending order; a matcher's answer does
    not change while one message is handled; 512 keys and 256 callbacks suffice.
  * Lookup: keys are integers or enumerations; fewer than 2^64 entries.
  * Irq: top-level interrupt numbers are distinct (`stdx::type_map` needs it);
    critical sections make operations atomic and do nothing else (Conc: they are
    mutual exclusion, with accesses of other threads in between); registers have
    no width, masks fit.
  * Mipi: little-endian target; the demangled text of the `encode_*` types is as
    in the comments of the model.
  * Catalog, Gen, Symbol, Chain: Python's `str` hash is an arbitrary function;
    the regular expressions are written out (in Symbol: with Python's
    backtracking); the XML and JSON libraries write and read what the standards
    say, `json.load` keeps the last of equal keys; `nm -uC` lists symbols as in
    `SymbolSpec`; ASCII input lines; the enumerations found by clang are given.
  * Nexus: a constexpr condition is its truth value.
  * Log: `stdx::env` finds the newest binding first; `stdx::ct_format` is a
    parameter; one critical section per destination type is mutual exclusion;
    `fmt::format_to` takes its iterator by value.
  * Describe: `{:x}` writes lower-case hexadecimal digits.
  * Release: a path is its text; no `#elif`; blank lines and the version text are
    left out.
  * Show: the DOT and mermaid languages are read by the readers in the
    specification, which cover the subset used.

## Not modelled

* C++: `stdx`, `async`, `conc` and `fmt` themselves; template instantiation and
  overload resolution beyond the outcomes written down; constant evaluation
  limits; object lifetime, alignment and `[[no_unique_address]]`; floating point
  values other than as bits; fields of class type; ARC instructions other than as
  what the two sequences in `lookup/detail/select.hpp` compute (C124); the memory
  order of registers on hardware.
* Python: `argparse`, `json` and `xml.etree` other than as used here (their
  behaviour on these inputs is written out in WrapModel, JsonModel and
  OutputModel); clang's parser for enumerations (its result is an input);
  the characters csv.writer puts between cells (C158); the random numbers of the
  benchmarks' data (C159).
* CMake other than the functions behind C142, C143, C144 and C154; the tests and
  the documentation.

## Divergences found

The properties that are false of the code, each with a witness in the theorem
named `..._refuted`, are described in the notes of `MANIFEST.json`. Those with
consequences for users without unusual input: C02 and C19 (`!=` conditions on two
constants accept the second), C10 and C100 (64-bit storage), C12 (storage too
short by one bit is accepted), C20 (indexed handlers run a callback once per
term of a disjunction, and ignore `not`), C22 (`with_less_than` accepts equal
values), C30 (stars on composites are lost), C36 (enables of nested interrupts),
C40 and C85 (`true` is logged as -1), C45, C64 and C84 (several stable or extra
JSON files), C61 and C103 (messages that differ in tags only: one is not
defined), C80 and C81 (texts with `%` or `&` in the XML), C99 (signed fields are
not sign-extended), C101 (order of structured bindings), C107 (`reset` of the
interrupt controller is not in a critical section).

## Theorems

| id | property | file | theorems (`Print Assumptions`: closed under the global context, for each) |
|----|----------|------|----------|
| C01 | Simplifying a matcher never changes what it matches | MatchProps, FieldMatchersProps | `C01_field_one_constant_partial`, `C01_field_positive_partial`, `C01_simplify_preserves_meaning` |
| C02 | Field relational matchers imply one another only when they really do | FieldMatchersProps, ExactProps | `C02_exact`, `C02_implication_refuted`, `C02_implication_partial`, `C02_field_and_refuted` |
| C03 | sum_of_products preserves meaning and yields a sum of products | MatchProps | `C03_sum_of_products_meaning`, `C03_sum_of_products_shape`, `C03_recursion_terminates` |
| C04 | The matcher ordering is sound | MatchProps | `C04_ordering_sound`, `C04_ordering_antisymmetric` |
| C05 | Every matcher is equivalent to itself | MatchProps | `C05_self_equivalence_refuted`, `C05_self_equivalence_partial`, `C05_self_collapse_partial` |
| C06 | Simplification never makes a matcher more expensive | MatchProps | `C06_cost_never_increases` |
| C07 | Simplified matchers contain no redundant constants | MatchProps | `C07_no_redundant_constants` |
| C08 | A field reads back what was written | FieldProps, WideProps | `C08_roundtrip`, `C08_roundtrip_representable`, `C08_last_write_wins`, `C08_any_width`, `C08_seats_narrow` |
| C09 | Writing a field leaves every other bit alone | FieldProps | `C09_frame`, `C09_independent`, `C09_commute` |
| C10 | Field values do not depend on the storage element width | FieldProps, WideProps | `C10_read_refuted`, `C10_write_refuted`, `C10_read_partial`, `C10_write_partial`, `C10_conditions_hold_for_narrow_storage`, `C10_read_exact`, `C10_write_exact`, `C10_read_right_iff`, `C10_write_right_iff` |
| C11 | A multi-location field is the concatenation of its parts | FieldProps | `C11_concatenation` |
| C12 | A storage accepted for a field is never accessed out of bounds | FieldProps, WideProps | `C12_accepted_refuted`, `C12_accepted_partial`, `C12_read_iff_inside`, `C12_computed_storage_fits`, `C12_places`, `C12_computed_storage_least`, `C12_read_iff_inside_any`, `C12_inside_any` |
| C13 | Constructing a message sets exactly the given fields, and defaults elsewhere | MessageProps | `C13_construct`, `C13_construct_then_get`, `C13_acceptance`, `C13_set`, `C13_construct_from_storage`, `C13_default_storage_fits` |
| C14 | Message equivalence is an equivalence relation on field values | MessageProps | `C14_equivalent_iff`, `C14_equivalence_relation`, `C14_ignores_other_bits` |
| C15 | A message type does not depend on field declaration order | MessageProps, ExactProps | `C15_exact`, `C15_order_refuted`, `C15_order_partial`, `C15_observations` |
| C16 | Extending a message overrides same-named fields | MessageProps | `C16_override_refuted`, `C16_override_partial`, `C16_exact` |
| C17 | Packed messages do not overlap | MessageProps | `C17_pack`, `C17_pack_value` |
| C18 | relaxed_message places every automatic field disjointly | MessageProps | `C18_relaxed`, `C18_layout` |
| C19 | A message handler runs exactly the callbacks that match | HandlerProps | `C19_handle`, `C19_field_refuted`, `C19_field_one_constant_partial`, `C19_field_positive_partial`, `C19_builder_add` |
| C20 | An indexed handler dispatches like a plain handler | HandlerProps | `C20_sum_runs_twice_refuted`, `C20_negation_dropped_refuted`, `C20_shared_negative_refuted`, `C20_two_equals_refuted`, `C20_no_index_refuted`, `C20_positive_partial`, `C20_clean_partial`, `C20_index_complete`, `C20_index_exact` |
| C21 | An indexed handler's is_match never misses | HandlerProps | `C21_is_match_never_misses`, `C21_is_match_complete` |
| C22 | with_less_than matches strictly smaller values | FieldMatchersProps | `C22_with_less_than_refuted`, `C22_constraints_partial`, `C22_with_less_than_actual` |
| C23 | A lookup table behaves as the map it was built from | LookupProps | `C23_make`, `C23_strategies`, `C23_value_unique`, `C23_make_compiles` |
| C24 | Lookups never read outside their tables | LookupProps | `C24_in_bounds`, `C24_build_exact`, `C24_index_fits` |
| C25 | The compressed lookup honours its maximum search length | LookupProps | `C25_refuted`, `C25_plus_one_partial`, `C25_one_partial`, `C25_cheapest` |
| C26 | The bit-gathering multiplication is injective on masked keys | LookupProps | `C26_injective_refuted`, `C26_range`, `C26_no_signed_overflow`, `C26_no_carry_partial`, `C26_one_stretch_partial`, `C26_two_stretches_exact`, `C26_chosen_mask` |
| C27 | A flow runs every added step exactly once in an order respecting all sequences | FlowProps | `C27_order`, `C27_run` |
| C28 | A flow is rejected iff its sequences contain a cycle | FlowProps | `C28_cycle`, `C28_reported` |
| C29 | Missing and duplicated steps are rejected | FlowProps | `C29_added_once`, `C29_missing_rejected`, `C29_repeated_rejected`, `C29_not_rejected`, `C29_star`, `C29_operators` |
| C30 | Runtime-conditional steps run iff their conditions hold | FlowProps | `C30_refuted`, `C30_exact`, `C30_starred_step_partial`, `C30_relative_order` |
| C31 | An accepted conditional flow never depends on an absent step | FlowProps | `C31_sequences_supported`, `C31_weaker_rejected` |
| C32 | A flow does not depend on how it is split into extensions | FlowProps | `C32_same_flow`, `C32_split` |
| C33 | Debug sub-flow selection is exactly the nodes between start and end | FlowProps | `C33_selection`, `C33_cycle_diverges` |
| C34 | The flow visualisation shows exactly the flow | FlowProps, ShowProps | `C34_refuted`, `C34_ids_refuted`, `C34_start_refuted`, `C34_shown_partial`, `C34_once_partial`, `C34_exact` |
| C35 | A sequencer only invokes valid steps and remembers its place | SeqProps | `C35_sequencer` |
| C36 | An interrupt enable bit is set iff its interrupt should be on | IrqProps, IrqHistoryProps | `C36_history`, `C36_exact`, `C36_affected`, `C36_partial`, `C36_flows_reach`, `C36_resources_reach`, `C36_refuted`, `C36_names_refuted` |
| C37 | Interrupt enable/disable never disturbs unrelated bits and writes minimally | IrqProps | `C37_frame`, `C37_partial`, `C37_refuted`, `C37_exact`, `C37_init_writes` |
| C38 | Enabling then disabling an interrupt source restores the registers | IrqProps | `C38_restore`, `C38_reachable` |
| C39 | An interrupt service routine runs exactly the active, enabled and pending interrupts | IrqProps | `C39_guarded`, `C39_exact`, `C39_clear_place`, `C39_manager` |
| C40 | A binary log message decodes to what was logged | MipiProps | `C40_exact`, `C40_partial`, `C40_short`, `C40_options`, `C40_bytes`, `C40_numbers`, `C40_lossless`, `C40_refuted`, `C40_unscoped_refuted`, `C40_char_enum_refuted`, `C40_template_refuted`, `C40_short_refuted` |
| C41 | A stream of log packets decodes unambiguously | MipiProps | `C41_partial`, `C41_packets`, `C41_refuted`, `C41_version_stops`, `C41_exact`, `C41_short64` |
| C42 | Build-version messages carry the whole version | MipiProps | `C42_exact`, `C42_partial`, `C42_capacity`, `C42_refuted` |
| C43 | String ids are unique and stable across builds | CatalogProps | `C43_stable`, `C43_distinct`, `C43_build`, `C43_new`, `C43_order` |
| C44 | Distinct messages are never confused in the catalog | CatalogProps | `C44_refuted`, `C44_swap_refuted`, `C44_partial`, `C44_exact`, `C44_which`, `C44_modules` |
| C45 | Several stable catalogs are all honoured | CatalogProps | `C45_exact`, `C45_partial`, `C45_refuted` |
| C46 | Compile-time enum arguments decode to their names | CatalogProps | `C46_exact`, `C46_ends`, `C46_partial`, `C46_refuted`, `C46_scope_refuted`, `C46_characters` |
| C47 | Argument lists with nested templates are split correctly | CatalogProps | `C47_split`, `C47_characters` |
| C48 | Nexus initialises each service from all its extensions | NexusProps | `C48_accepts`, `C48_unexported`, `C48_builds`, `C48_determined` |
| C49 | Callback services call every registered callback once, in order | NexusProps | `C49_exact`, `C49_partial`, `C49_refuted`, `C49_move_only` |
| C50 | Using a service before initialisation panics, after it never does | NexusProps | `C50_by_type`, `C50_by_name`, `C50_exact`, `C50_frame`, `C50_after`, `C50_refuted` |
| C51 | Runtime conditions combine by conjunction | NexusProps | `C51_and`, `C51_laws`, `C51_nested` |
| C52 | The top-level lifecycle runs each phase once in order, then the main loop forever | NexusProps | `C52_order`, `C52_effects` |
| C53 | The documented Boolean simplification laws hold | MatchProps | `C53_identity_laws`, `C53_complement_laws`, `C53_de_morgan_law`, `C53_absorption_partial`, `C53_absorption_refuted` |
| C54 | Relational field matchers combine as documented | FieldMatchersProps, MoreExactProps | `C54_lt_and_gt`, `C54_lt_or_gt`, `C54_lt_and_lt`, `C54_lt_or_lt`, `C54_eq_and_eq`, `C54_refuted`, `C54_exact` |
| C55 | Renaming a field changes only its name | MessageProps | `C55_rename`, `C55_accepts` |
| C56 | The capacities computed for a flow's containers always suffice | FlowProps | `C56_capacity` |
| C57 | A built sequencer calls the functions its steps were declared with | SeqProps | `C57_refuted`, `C57_composite_refuted`, `C57_exact`, `C57_reference`, `C57_partial` |
| C58 | Interrupts whose resource is off do not run | IrqProps | `C58_partial`, `C58_exact`, `C58_refuted` |
| C59 | Manager initialisation enables exactly the interrupts that can run something | IrqProps | `C59_partial`, `C59_exact`, `C59_refuted` |
| C60 | Explicit string ids are honoured | CatalogProps | `C60_partial`, `C60_refuted`, `C60_exact` |
| C61 | Every catalog symbol referenced by the program gets a definition | CatalogProps | `C61_exact`, `C61_partial`, `C61_refuted` |
| C62 | The catalog holds the text written in the source | CatalogProps, ExactProps | `C62_partial`, `C62_refuted`, `C62_empty_refuted`, `C62_unsigned_exact`, `C62_signed_exact`, `C62_exact`, `C62_same_encoding` |
| C63 | Module ids that pass the limit check fit the 7 bits they are sent in | CatalogProps | `C63_modules`, `C63_limit` |
| C64 | Extra JSON inputs are added without losing messages | CatalogProps | `C64_partial`, `C64_exact`, `C64_refuted` |
| C65 | An extension by name may be placed wherever one by type may | NexusProps, MoreExactProps | `C65_respelled`, `C65_conditional`, `C65_partial`, `C65_refuted` |
| C66 | A message callback under runtime conditions keeps its function | NexusProps | `C66_partial`, `C66_refuted`, `C66_exact` |
| C67 | Packets from several threads reach each destination whole, in order, and all of them | LogProps | `C67_whole`, `C67_complete`, `C67_ends`, `C67_everywhere` |
| C68 | Packets stay whole whatever writes them | LogProps | `C68_refuted`, `C68_types_refuted`, `C68_partial`, `C68_when`, `C68_exact` |
| C69 | A destination keeps its state between log calls | LogProps | `C69_exact`, `C69_partial`, `C69_refuted` |
| C70 | The text logger writes one complete line per call to every destination | LogProps, MoreExactProps | `C70_partial`, `C70_lines`, `C70_time`, `C70_layout`, `C70_level`, `C70_refuted`, `C70_place_exact` |
| C71 | A log call uses the innermost setting of each environment value | LogProps | `C71_settings`, `C71_defaults`, `C71_accepts`, `C71_refuted` |
| C72 | Fatal errors and failed assertions log once and panic with the same message | LogProps, ExactProps | `C72_assert_exact`, `C72_fatal`, `C72_places`, `C72_few`, `C72_assert_partial`, `C72_refuted` |
| C73 | The version is logged to the right logger in the environment of the call | LogProps, ExactProps | `C73_exact`, `C73_logger`, `C73_partial`, `C73_refuted` |
| C74 | A log call goes to the logger of its flavor and to no other | LogProps | `C74_flavor`, `C74_frame` |
| C75 | A log environment set for a step or flow is used for its logs | LogProps, ExactProps | `C75_exact`, `C75_partial`, `C75_flow_partial`, `C75_refuted` |
| C76 | A matcher's description says what the matcher does | DescribeProps | `C76_reads`, `C76_unambiguous`, `C76_chains`, `C76_same_text_partial`, `C76_same_text_refuted`, `C76_callback` |
| C77 | The log line for a message that did not match shows why | DescribeProps | `C77_explains`, `C77_because`, `C77_collapsed` |
| C78 | Reserved string ids are read as written | GenProps | `C78_reads`, `C78_written`, `C78_text`, `C78_leading_zero` |
| C79 | Named arguments do not change from build to build | GenProps | `C79_no_drift`, `C79_many` |
| C80 | The printf format in the XML prints what the message prints | GenProps | `C80_exact`, `C80_partial`, `C80_refuted`, `C80_conversions` |
| C81 | The text of a message in the XML is its text | GenProps | `C81_exact`, `C81_partial`, `C81_refuted` |
| C82 | The generated C++ is the specialisations and nothing else | GenProps | `C82_partial`, `C82_exact`, `C82_when`, `C82_refuted` |
| C83 | The XML names the enumeration of every enumeration argument | GenProps | `C83_exact`, `C83_partial`, `C83_refuted` |
| C84 | The JSON keeps every known name of an enumerator | GenProps | `C84_exact`, `C84_own`, `C84_partial`, `C84_refuted` |
| C85 | A decoded log line is the line the program would have printed | GenProps, MoreExactProps | `C85_partial`, `C85_refuted`, `C85_others`, `C85_exact` |
| C86 | The single release header is the library | ReleaseProps | `C86_partial`, `C86_refuted`, `C86_conditional_refuted` |
| C87 | The release header includes what the code needs, in time, and nothing else | ReleaseProps | `C87_partial`, `C87_refuted`, `C87_only_partial`, `C87_only_refuted` |
| C88 | The release header can always be made and has every line once | ReleaseProps, MoreExactProps | `C88_twice_exact`, `C88_ends`, `C88_once_partial`, `C88_once_refuted` |
| C89 | The log of a flow tells what ran | ShowProps | `C89_log`, `C89_silent`, `C89_lines` |
| C90 | The graphviz text of a flow reads as the flow | ShowProps | `C90_text_partial`, `C90_exact`, `C90_flow_partial`, `C90_space_refuted`, `C90_keyword_refuted` |
| C91 | The mermaid text of a flow reads as the flow | ShowProps | `C91_text_partial`, `C91_exact`, `C91_ids_refuted`, `C91_always_refuted` |
| C92 | A step logs with the environment declared for it | ShowProps | `C92_partial`, `C92_refuted`, `C92_exact` |
| C93 | Every message and module of a program is read from its symbols | SymbolProps | `C93_exact`, `C93_characters`, `C93_partial`, `C93_refuted`, `C93_accented` |
| C94 | The definitions written are definitions of the symbols read | SymbolProps | `C94_types`, `C94_definitions` |
| C95 | The encodings of arguments are read from their text | SymbolProps | `C95_reads`, `C95_others` |
| C96 | Every enumeration logged is declared once | SymbolProps | `C96_declared`, `C96_order`, `C96_refuses` |
| C97 | Owners and views of one storage show the same values | AccessProps | `C97_refines`, `C97_accepts`, `C97_shared`, `C97_unaffected` |
| C98 | Owners have storages of their own and const views do not write | AccessProps | `C98_untouched`, `C98_own_storage`, `C98_const`, `C98_names` |
| C99 | Values of a field's type read back | AccessProps | `C99_signed_refuted`, `C99_reads`, `C99_reads_back_partial`, `C99_can_hold` |
| C100 | Fields of a single unsigned integer | AccessProps, ExactProps | `C100_wide_refuted`, `C100_read_partial`, `C100_write_partial`, `C100_read_exact`, `C100_write_exact` |
| C101 | Structured bindings follow the declaration | AccessProps | `C101_declared_order_refuted`, `C101_values_partial`, `C101_declared_order_partial`, `C101_exact` |
| C102 | Conditions on fields given by name | AccessProps | `C102_compiles`, `C102_meaning_refuted`, `C102_one_constant_partial`, `C102_plain_partial`, `C102_callbacks_partial` |
| C103 | A log line shows the call | ChainProps | `C103_exact`, `C103_partial`, `C103_refuted`, `C103_link_refuted`, `C103_explicit`, `C103_compile_time` |
| C104 | Old logs stay readable with later catalogs | ChainProps | `C104_readable`, `C104_older`, `C104_edited` |
| C105 | A decoded log shows the source | SourceProps | `C105_exact`, `C105_partial`, `C105_calls`, `C105_ids`, `C105_accepts`, `C105_refuted`, `C105_module_refuted` |
| C106 | Logs of several threads decode to each thread's lines | SourceProps | `C106_any_time`, `C106_exact` |
| C107 | Concurrent use of the interrupt controller | ConcProps | `C107_partial`, `C107_exclusive`, `C107_rule`, `C107_alone`, `C107_accepts`, `C107_refuted` |
| C108 | A project does what its components say | ProjectProps | `C108_runs`, `C108_ends`, `C108_compiles` |
| C109 | A project started by cib::top | ProjectProps | `C109_boot`, `C109_no_panic`, `C109_alive` |
| C110 | The order of independent steps does not matter | ProjectProps | `C110_orders`, `C110_runs` |
| C111 | The arrangement of components does not matter | ProjectProps | `C111_accepts`, `C111_services`, `C111_runs` |
| C112 | Interrupts serve the flows of components | ProjectProps | `C112_active`, `C112_served` |
| C113 | Messages reach the callbacks that components declare | DispatchProps | `C113_runs`, `C113_ends` |
| C114 | Indexing services makes no difference to a project | DispatchProps | `C114_indexing` |
| C115 | From the values given to the callbacks called | DispatchProps | `C115_values` |
| C116 | The XML collateral reads back as the catalog | OutputProps | `C116_collateral_reads_back_partial`, `C116_exact`, `C116_ampersand_refuted` |
| C117 | A message is found in the XML collateral by its id | OutputProps, ExactProps | `C117_exact`, `C117_alone_exact`, `C117_messages_are_found_by_id_partial`, `C117_wide_ids_refuted` |
| C118 | The enumerations of the generated source are all found | RunProps | `C118_enums_are_found`, `C118_exact`, `C118_distinct_enums_refuted` |
| C119 | The generated source defines every message and module once | RunProps | `C119_source_defines_each_once_partial`, `C119_line_feed_refuted`, `C119_exact` |
| C120 | The files of one run agree | RunProps | `C120_files_agree_partial`, `C120_exact`, `C120_arguments`, `C120_refuted`, `C120_enumerations` |
| C121 | A run that fails leaves the files as they were | RunProps | `C121_failing_runs_partial`, `C121_failing_runs_refuted`, `C121_exact` |
| C122 | The baked tables of an indexed service are its indices | BakedProps | `C122_tables_are_exact`, `C122_built_service_dispatches` |
| C123 | An indexed service within its capacities can be built | BakedProps | `C123_when_it_builds`, `C123_builds_partial`, `C123_builds_refuted` |
| C124 | Selection is the same on every processor and at compile time | BakedProps, ExactProps | `C124_linear`, `C124_select`, `C124_select_lt_partial`, `C124_select_lt_refuted`, `C124_select_lt_exact` |
| C125 | The never-matcher validator rejects what never matches | BakedProps | `C125_rejected_partial`, `C125_rejected_refuted` |
| C126 | The condition of a callback is about the fields of its message, however the data comes | CallProps | `C126_conditions`, `C126_fields` |
| C127 | A callable sees the fields of its message, whatever it takes | CallProps | `C127_sees`, `C127_array`, `C127_way`, `C127_enters` |
| C128 | Callables cannot change what a service was given as const | CallProps | `C128_plain`, `C128_call`, `C128_indexed` |
| C129 | A callable runs only on a message that satisfies its condition then | CallProps, CallTurnsProps | `C129_plain_partial`, `C129_indexed_refuted`, `C129_indexed_exact`, `C129_indexed_partial` |
| C130 | An indexed service calls what a plain service calls | CallProps | `C130_indexed_partial`, `C130_moved_refuted` |
| C131 | Simplification is final | StableProps | `C131_refuted`, `C131_complement_refuted`, `C131_cheaper`, `C131_settles`, `C131_settled_meaning`, `C131_partial`, `C131_double_negation`, `C131_complement_partial`, `C131_fields_partial` |
| C132 | The configuration text tells the interrupt configuration | ConfigProps | `C132_exact`, `C132_partial`, `C132_types`, `C132_refuted` |
| C133 | A described message shows what its fields hold | SummaryProps | `C133_text`, `C133_distinct`, `C133_floating` |
| C134 | A description sent in binary decodes to the line of the text logger | SummaryProps | `C134_exact`, `C134_partial`, `C134_refuted`, `C134_bool_refuted`, `C134_empty` |
| C135 | The policies of enable and disable count in any order | PolicyProps | `C135_chosen`, `C135_order` |
| C136 | Initialization starts what its policy makes active | PolicyProps | `C136_exact`, `C136_partial`, `C136_refuted` |
| C137 | The errors of a flow name exactly what is wrong | DiagnoseProps | `C137_missing`, `C137_duplicate`, `C137_weak`, `C137_built` |
| C138 | The error for a cycle lists the edges of the cycle | DiagnoseProps | `C138_exact`, `C138_partial`, `C138_refuted` |
| C139 | A request receives the first reply that comes after it is sent | SendProps | `C139_answered`, `C139_after`, `C139_sent`, `C139_kept`, `C139_round` |
| C140 | The decoder puts the lines of a log where it is asked to | DecodeProps | `C140_exact`, `C140_missing`, `C140_partial`, `C140_refuted` |
| C141 | A log that is cut short shows the first lines of the whole | DecodeProps | `C141_partial`, `C141_exact`, `C141_lines`, `C141_refuted` |
| C142 | What a call of gen_str_catalog says reaches the generator | WrapProps | `C142_partial`, `C142_exact`, `C142_override`, `C142_refuted`, `C142_module_max_refuted`, `C142_shell_refuted`, `C142_scope_refuted` |
| C143 | After a build the catalog is up to date with its inputs | WrapProps | `C143_partial`, `C143_no_headers`, `C143_exact`, `C143_refuted` |
| C144 | The file of a flow graph has the graph that the compiler shows | GraphProps | `C144_partial`, `C144_exact`, `C144_silent`, `C144_refuted` |
| C145 | A catalog made to forget disregards the stable catalogs | ForgetProps | `C145_exact`, `C145_contents`, `C145_refuted`, `C145_new_refuted`, `C145_partial` |
| C146 | The comparison of matchers is a partial order | OrderProps | `C146_transitive`, `C146_bounds`, `C146_extremes`, `C146_ne_refuted`, `C146_wrap_refuted`, `C146_partial` |
| C147 | The catalog does not depend on the hash seed or on the order of the symbols | ReproduceProps | `C147_seed`, `C147_messages`, `C147_modules`, `C147_seed_refuted`, `C147_order_refuted`, `C147_partial` |
| C148 | set sets what it is given | SubscriptProps | `C148_refuted`, `C148_names_refuted`, `C148_exact`, `C148_accepted`, `C148_partial` |
| C149 | A subscript is the value of the field | SubscriptProps | `C149_refuted`, `C149_copy_refuted`, `C149_exact`, `C149_partial`, `C149_assign`, `C149_accepted`, `C149_types` |
| C150 | A constraint goes with its field | FieldOpsProps | `C150_refuted`, `C150_accepts_refuted`, `C150_outside_refuted`, `C150_renamed_refuted`, `C150_swapped_refuted`, `C150_raw_exact`, `C150_exact`, `C150_partial`, `C150_later`, `C150_pack`, `C150_relaxed`, `C150_rename`, `C150_made`, `C150_accepted` |
| C151 | Messages log with the environments they were given | MsgEnvProps | `C151_env`, `C151_layout`, `C151_log`, `C151_handler`, `C151_indexed` |
| C152 | A field is where its definition says | PlaceProps | `C152_modulo`, `C152_partial`, `C152_exact`, `C152_back`, `C152_sum`, `C152_refuted`, `C152_everywhere_refuted`, `C152_valid`, `C152_valid_refuted`, `C152_locator`, `C152_shift`, `C152_pack`, `C152_pack_refuted` |
| C153 | A JSON file reads back as what was written | JsonProps | `C153_partial`, `C153_exact`, `C153_again`, `C153_differ`, `C153_ascii`, `C153_refuted`, `C153_keys_refuted`, `C153_message`, `C153_module`, `C153_catalog`, `C153_symbols`, `C153_named_refuted` |
| C154 | After a build the release header is that of the sources | RelBuildProps | `C154_partial`, `C154_exact`, `C154_reads`, `C154_listed`, `C154_refuted`, `C154_version_refuted` |
| C155 | Ids stay while the catalog goes from build to build as a JSON file | FileProps | `C155_same`, `C155_stable`, `C155_distinct`, `C155_modules` |
| C156 | A catalog file that was cut short is never taken for a catalog | CutProps | `C156_cut`, `C156_stops`, `C156_longer`, `C156_values` |
| C157 | What several JSON files say together is what the last one says under each heading | ManyProps, UpdateProps | `C157_reread`, `C157_stable`, `C157_one`, `C157_last`, `C157_possible`, `C157_output`, `C157_dict_update`, `C157_stable_update`, `C157_update_agrees`, `C157_stable_agrees`, `C157_empty_files`, `C157_pairs`, `C157_update_exact`, `C157_stops_without_a_dict_refuted` |
| C158 | The benchmark tables show the last times measured and the algorithms' own sizes | BenchProps | `C158_tables`, `C158_stops`, `C158_size_refuted`, `C158_size_partial`, `C158_comma_refuted`, `C158_colon_refuted` |
| C159 | The data of the lookup benchmarks is one cycle through distinct keys | CycleProps | `C159_cycle`, `C159_ends`, `C159_never`, `C159_lookup`, `C159_text` |
