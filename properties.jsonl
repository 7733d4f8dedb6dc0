{"id": "C01", "title": "Simplifying a matcher never changes what it matches", "statement": "For every match expression built from and/or/not/always/never over leaf matchers whose own implication and negation customisations are truthful, the result of the and/or/not operators, of match::simplify, of match::all and of match::any accepts exactly the same events as the unsimplified boolean expression.", "quantifier": "for all match expressions (any nesting depth), all leaf vocabularies with truthful customisation points, all events", "why_tests_cant": "Expression trees are unbounded; tests exercise a handful of shapes.", "anchors": ["include/match/and.hpp:and_t simplify", "include/match/or.hpp:or_t simplify", "include/match/not.hpp:not_t simplify", "include/match/bin_op.hpp:de_morgan", "include/match/ops.hpp", "include/match/constant.hpp"]}
{"id": "C02", "title": "Field relational matchers imply one another only when they really do", "statement": "For any two relational matchers on the same message field (==, !=, <, <=, >, >= against constants of the field's type), whenever match::implies says the first implies the second, every field value accepted by the first is accepted by the second.", "quantifier": "for all pairs of relational operators, all pairs of constants and all field values of every integral width and signedness", "why_tests_cant": "There are 36 operator pairs times all constants times all values; tests pick a few constants and omit != against !=.", "anchors": ["include/msg/field_matchers.hpp:rel_matcher_t", "include/msg/field_matchers.hpp:implies_t overloads 218-332"]}
{"id": "C03", "title": "sum_of_products preserves meaning and yields a sum of products", "statement": "match::sum_of_products accepts exactly the same events as its argument, and when the argument contains no double negation the result is a disjunction of conjunctions of literals (no `or` below an `and`, no and/or below a `not`).", "quantifier": "for all match expressions and all events", "why_tests_cant": "Distribution is recursive over unbounded trees.", "anchors": ["include/match/sum_of_products.hpp", "include/match/and.hpp:sum_of_products", "include/match/or.hpp:sum_of_products", "include/match/not.hpp:sum_of_products"]}
{"id": "C04", "title": "The matcher ordering is sound", "statement": "When X <=> Y reports less, greater or equivalent, then respectively every event accepted by X is accepted by Y, vice versa, or both, for leaves with truthful implications.", "quantifier": "for all pairs of match expressions and all events", "why_tests_cant": "Pairs of unbounded expressions; the ordering is only compared on hand-picked pairs in tests.", "anchors": ["include/match/ops.hpp:operator<=>", "include/match/implies.hpp"]}
{"id": "C05", "title": "Every matcher is equivalent to itself", "statement": "For every matcher X, X => X holds, hence X <=> X reports equivalent and `X and X`, `X or X` collapse to X, as the documentation states (\"X => X\").", "quantifier": "for all match expressions", "why_tests_cant": "Tests only check reflexivity on leaf matchers; compound matchers are unbounded.", "anchors": ["include/match/implies.hpp", "include/match/and.hpp:implies_t overload", "include/match/or.hpp:implies_t overload", "docs/match.adoc"]}
{"id": "C06", "title": "Simplification never makes a matcher more expensive", "statement": "match::simplify and the and/or/not operators never return a matcher whose match::cost exceeds the cost of the unsimplified expression.", "quantifier": "for all match expressions over leaves of cost 1 whose negation costs 1 or wraps in a not", "why_tests_cant": "Cost is a recursive measure over unbounded trees and de Morgan can introduce nots.", "anchors": ["include/match/cost.hpp", "include/match/bin_op.hpp:de_morgan", "include/match/*.hpp"]}
{"id": "C07", "title": "Simplified matchers contain no redundant constants", "statement": "A simplified matcher is either exactly always, exactly never, or contains neither constant anywhere inside it.", "quantifier": "for all match expressions", "why_tests_cant": "Requires structural induction over all expressions.", "anchors": ["include/match/constant.hpp", "include/match/and.hpp", "include/match/or.hpp", "include/match/not.hpp"]}
{"id": "C08", "title": "A field reads back what was written", "statement": "Inserting a value into a field and extracting the field from the same storage returns the value reduced to the field's width (the value itself when it is representable), for single- and multi-location fields with non-overlapping locations in 8-, 16- and 32-bit-element storage.", "quantifier": "for all field locations inside the storage, all storage contents, all values", "why_tests_cant": "2^(storage bits) contents times all locations; tests use a few dozen cases.", "anchors": ["include/msg/field.hpp:bits_locator_t::extract", "include/msg/field.hpp:bits_locator_t::insert", "include/msg/field.hpp:field_locator_t"]}
{"id": "C09", "title": "Writing a field leaves every other bit alone", "statement": "Inserting a value into a field changes no bit of the storage outside the field's own locations; therefore fields with disjoint locations are independent and their writes commute.", "quantifier": "for all fields, storage contents and values in storage of 8-, 16- or 32-bit elements (for 64-bit elements see C10)", "why_tests_cant": "Frame property over all bits of all storages.", "anchors": ["include/msg/field.hpp:bits_locator_t::insert", "include/msg/field.hpp:field_locator_t::insert"]}
{"id": "C10", "title": "Field values do not depend on the storage element width", "statement": "Reading (or writing) a field gives the same value (or the same overall bits) whether the same little-endian message image is held in 8-, 16-, 32- or 64-bit elements.", "quantifier": "for all message images, all fields, all element widths", "why_tests_cant": "Cross product of images, locations and widths; no test uses 64-bit elements.", "anchors": ["include/msg/field.hpp:78-199"]}
{"id": "C11", "title": "A multi-location field is the concatenation of its parts", "statement": "The value of a field with several locations is the concatenation of the locations' bits with the first listed location most significant.", "quantifier": "for all lists of locations and all storage contents in storage of 8-, 16- or 32-bit elements (for 64-bit elements see C10)", "why_tests_cant": "Unbounded number of locations and contents.", "anchors": ["include/msg/field.hpp:field_locator_t 232-271", "include/msg/field.hpp:fold", "include/msg/field.hpp:unfold"]}
{"id": "C12", "title": "A storage accepted for a field is never accessed out of bounds", "statement": "Whenever a message view or owner accepts a storage for a message (the static storage-size check passes for each field), reading and writing every field touches only bytes inside that storage.", "quantifier": "for all fields and all storage sizes and element widths", "why_tests_cant": "Boundary sizes for every location and width; tests do not try the exact boundary and a constant-evaluated out-of-bounds is only seen in constexpr contexts.", "anchors": ["include/msg/field.hpp:fits_inside 201-205", "include/msg/field.hpp:extent_in", "include/msg/message.hpp:msg_access::check 197-230"]}
{"id": "C13", "title": "Constructing a message sets exactly the given fields, and defaults elsewhere", "statement": "After constructing an owning message from zeroed storage with a list of field values, each listed field holds its given value (truncated to width), each unlisted field with a default holds its default, each unlisted required field holds its required value, and all bits not covered by any field are zero.", "quantifier": "for all messages with non-overlapping fields and all subsets of supplied values in storage of 8-, 16- or 32-bit elements (for 64-bit elements see C10)", "why_tests_cant": "Every combination of fields, defaults and values.", "anchors": ["include/msg/message.hpp:owner_t constructors 489-540", "include/msg/message.hpp:msg_access", "include/msg/field.hpp:insert_default"]}
{"id": "C14", "title": "Message equivalence is an equivalence relation on field values", "statement": "equivalent(a,b) is true exactly when every field of the message holds the same value in both, ignoring bits outside fields; it is reflexive, symmetric and transitive and is unaffected by writes outside fields.", "quantifier": "for all messages, storages and views in storage of 8-, 16- or 32-bit elements (for 64-bit elements see C10)", "why_tests_cant": "Relation over all storage contents.", "anchors": ["include/msg/message.hpp:equiv 476-484", "include/msg/message.hpp:equiv 578-586", "include/msg/message.hpp:equivalent 662-682"]}
{"id": "C15", "title": "A message type does not depend on field declaration order", "statement": "Two message definitions that differ only in the order in which fields are declared are the same type (same canonical field list).", "quantifier": "for all lists of fields and all permutations", "why_tests_cant": "All permutations of unbounded field lists; tests use distinct start positions only.", "anchors": ["include/msg/message.hpp:field_sort_fn 301-302", "include/msg/message.hpp:message 336-345", "docs/message.adoc"]}
{"id": "C16", "title": "Extending a message overrides same-named fields", "statement": "When a message is extended with fields, any new field with the same name as an inherited field replaces it, all other inherited fields are kept, and the result has unique field names.", "quantifier": "for all base messages and extension field lists", "why_tests_cant": "All combinations of positions of old and new fields; tests redefine a field at the same position.", "anchors": ["include/msg/message.hpp:unique_by_name 307-310", "include/msg/message.hpp:extend 624-627", "docs/message.adoc"]}
{"id": "C17", "title": "Packed messages do not overlap", "statement": "msg::pack places the fields of each sub-message in disjoint bit ranges, in order, each starting on the requested alignment, so each sub-message's fields can be set without disturbing another's.", "quantifier": "for all lists of messages and alignments", "why_tests_cant": "Unbounded lists of messages.", "anchors": ["include/msg/message.hpp:msg_offsets 737-760", "include/msg/message.hpp:shifted_msgs", "include/msg/message.hpp:pack 770-779", "include/msg/field.hpp:shifted_by"]}
{"id": "C18", "title": "relaxed_message places every automatic field disjointly", "statement": "relaxed_message keeps every located field where it is and gives each unlocated field its own byte-aligned location after the located fields, overlapping no other field.", "quantifier": "for all mixtures of located and unlocated fields", "why_tests_cant": "Unbounded lists of fields and sizes.", "anchors": ["include/msg/message.hpp:field_locator 781-820", "include/msg/message.hpp:relaxed_message"]}
{"id": "C19", "title": "A message handler runs exactly the callbacks that match", "statement": "handle(msg) invokes each registered callback whose matcher (including the message's own required-field matcher and any runtime condition) accepts the message, exactly once, in registration order, no other callback; it returns true iff at least one ran, and otherwise logs one error; is_match is true iff handle would return true.", "quantifier": "for all lists of callbacks and all messages", "why_tests_cant": "Unbounded lists of callbacks and messages.", "anchors": ["include/msg/handler.hpp", "include/msg/callback.hpp", "include/msg/handler_builder.hpp"]}
{"id": "C20", "title": "An indexed handler dispatches like a plain handler", "statement": "For any set of callbacks, indexed fields and message, an indexed handler invokes exactly the callbacks whose matcher accepts the message - the same set the non-indexed handler would invoke - each exactly once.", "quantifier": "for all callback lists, index specifications and messages", "why_tests_cant": "Unbounded combinations of positive, negative and absent terms; tests cover single negatives only.", "anchors": ["include/msg/detail/indexed_builder_common.hpp:temp_index", "include/msg/detail/indexed_builder_common.hpp:invoke_callback", "include/msg/detail/indexed_handler_common.hpp", "include/msg/detail/separate_sum_terms.hpp", "include/msg/field_matchers.hpp:index_terms,index_not_terms,remove_terms"]}
{"id": "C21", "title": "An indexed handler's is_match never misses", "statement": "Whenever an indexed handler's handle(msg) would run a callback, is_match(msg) is true.", "quantifier": "for all callbacks, indices and messages", "why_tests_cant": "All callbacks and messages.", "anchors": ["include/msg/detail/indexed_handler_common.hpp:45-64"]}
{"id": "C22", "title": "with_less_than matches strictly smaller values", "statement": "A field declared with_less_than<V> makes the message matcher accept exactly the messages whose field value is less than V; similarly for every other with_* constraint.", "quantifier": "for all constants and field values", "why_tests_cant": "No test covers with_less_than; value space unbounded.", "anchors": ["include/msg/field.hpp:with_* 476-531"]}
{"id": "C23", "title": "A lookup table behaves as the map it was built from", "statement": "lookup::make(input)[k] returns the value paired with k if k is a key of the input, and the default otherwise, whichever strategy is selected.", "quantifier": "for all inputs with unique keys, all key widths, and all queried keys", "why_tests_cant": "2^64 keys, arbitrarily many entries.", "anchors": ["include/lookup/lookup.hpp", "include/lookup/linear_search_lookup.hpp", "include/lookup/pseudo_pext_lookup.hpp", "include/lookup/strategies.hpp"]}
{"id": "C24", "title": "Lookups never read outside their tables", "statement": "Every array access done by a lookup built by lookup::make, for every queried key, is within the bounds of its storage and index tables, and building the table terminates with every index inside the index type.", "quantifier": "for all inputs and queried keys", "why_tests_cant": "Out-of-bounds reads depend on hash buckets of arbitrary keys.", "anchors": ["include/lookup/pseudo_pext_lookup.hpp:indirect impl 300-347", "include/lookup/pseudo_pext_lookup.hpp:make 350-469"]}
{"id": "C25", "title": "The compressed lookup honours its maximum search length", "statement": "A pseudo-pext lookup configured with a maximum search length M compares at most M keys per query.", "quantifier": "for all inputs and M", "why_tests_cant": "Depends on the bucket structure of arbitrary key sets.", "anchors": ["include/lookup/pseudo_pext_lookup.hpp:calc_pseudo_pext_mask 217-257", "include/lookup/pseudo_pext_lookup.hpp:count_longest_run 125-154"]}
{"id": "C26", "title": "The bit-gathering multiplication is injective on masked keys", "statement": "For every mask with a valid pack coefficient, pseudo-pext maps keys that differ under the mask to different indices, all below 2^(number of mask bits) of its table, without signed overflow.", "quantifier": "for all masks and keys of 8..64 bits", "why_tests_cant": "All masks times all pairs of keys.", "anchors": ["include/lookup/pseudo_pext_lookup.hpp:compute_pack_coefficient 63-87", "include/lookup/pseudo_pext_lookup.hpp:pseudo_pext_t 89-111"]}
{"id": "C27", "title": "A flow runs every added step exactly once in an order respecting all sequences", "statement": "When a flow builds, the executed order contains each explicitly added step exactly once, and for every sequence a >> b (also across components, and between the final steps and initial steps of sub-graphs) a comes before b, whatever order the library's internal sets enumerate nodes.", "quantifier": "for all acyclic graphs and all enumeration orders", "why_tests_cant": "Unbounded graphs and enumeration orders.", "anchors": ["include/flow/graph_builder.hpp:topo_sort 142-171", "include/flow/graph_builder.hpp:get_sources", "include/flow/graph_builder.hpp:build 215-240", "include/flow/dsl/seq.hpp", "include/flow/dsl/par.hpp"]}
{"id": "C28", "title": "A flow is rejected iff its sequences contain a cycle", "statement": "Building a flow reports a cycle if and only if the declared sequences contain a cycle.", "quantifier": "for all graphs", "why_tests_cant": "Unbounded graphs.", "anchors": ["include/flow/graph_builder.hpp:built 246-272"]}
{"id": "C29", "title": "Missing and duplicated steps are rejected", "statement": "A flow builds only if every step mentioned anywhere is explicitly added exactly once, and it is rejected if some step is mentioned but never added or added more than once.", "quantifier": "for all flow descriptions", "why_tests_cant": "Unbounded descriptions.", "anchors": ["include/flow/graph_builder.hpp:check_for_missing_nodes 184-213", "include/flow/dsl/walk.hpp"]}
{"id": "C30", "title": "Runtime-conditional steps run iff their conditions hold", "statement": "A step runs if and only if all runtime conditions under which it was added hold when the flow is run, and the relative order of the steps that run is that of the unconditional flow.", "quantifier": "for all flows, nestings of conditions and truth assignments", "why_tests_cant": "Exponentially many truth assignments over unbounded flows.", "anchors": ["include/flow/func_list.hpp:run_func 21-35", "include/flow/step.hpp:make_runtime_conditional", "include/flow/dsl/seq.hpp:make_runtime_conditional", "include/nexus/detail/runtime_conditional.hpp"]}
{"id": "C31", "title": "An accepted conditional flow never depends on an absent step", "statement": "If a flow is accepted, then for every sequence a >> b the sequence's condition implies the conditions of both steps, so whenever the sequence is active both its steps run.", "quantifier": "for all flows and truth assignments", "why_tests_cant": "All truth assignments.", "anchors": ["include/flow/graph_builder.hpp:make_graph 82-114"]}
{"id": "C32", "title": "A flow does not depend on how it is split into extensions", "statement": "Adding the same fragments to a flow in one call, several calls or different components yields the same set of steps and the same ordering constraints.", "quantifier": "for all partitions and orders of fragments", "why_tests_cant": "All partitions of unbounded fragment lists.", "anchors": ["include/flow/builder.hpp", "include/flow/dsl/walk.hpp"]}
{"id": "C33", "title": "Debug sub-flow selection is exactly the nodes between start and end", "statement": "For acyclic flows the flow debug builder keeps exactly the steps reachable from start from which end is reachable, and exactly the sequences between kept steps.", "quantifier": "for all acyclic graphs", "why_tests_cant": "Reachability over unbounded graphs.", "anchors": ["include/flow/debug_builder.hpp", "include/flow/graph_common.hpp:52-102"]}
{"id": "C34", "title": "The flow visualisation shows exactly the flow", "statement": "The visualiser lists start, end and each step once, each sequence once, an edge from start to every step without predecessors and from every step without successors to end, and nothing else.", "quantifier": "for all flows", "why_tests_cant": "Unbounded flows.", "anchors": ["include/flow/viz_builder.hpp:121-159"]}
{"id": "C35", "title": "A sequencer only invokes valid steps and remembers its place", "statement": "For any interleaving of forward() and backward() calls and any step results, the sequencer calls only existing steps, forward steps in order and backward steps in reverse order, resumes a not-done step by calling the same step again (in its own direction) before anything else, and forward() (backward()) returns done exactly when all steps are done forward (undone).", "quantifier": "for all numbers of steps, histories of calls and step outcomes", "why_tests_cant": "Unbounded call histories and step outcomes.", "anchors": ["include/seq/impl.hpp"]}
{"id": "C36", "title": "An interrupt enable bit is set iff its interrupt should be on", "statement": "After any history of init/enable/disable operations with upward propagation, for every interrupt whose enabledness may have been affected, the enable bit in the hardware register equals the documented rule: not disabled by name, all its required resources on, and some flow of it on or some child on.", "quantifier": "for all interrupt trees and all histories of enable/disable calls", "why_tests_cant": "Unbounded trees and histories.", "anchors": ["include/interrupt/dynamic_controller.hpp", "include/interrupt/policies.hpp:is_on 82-118", "include/interrupt/config.hpp:70-82"]}
{"id": "C37", "title": "Interrupt enable/disable never disturbs unrelated bits and writes minimally", "statement": "An enable or disable operation leaves every register bit that does not belong to an affected interrupt unchanged, the shadow value always equals the last value written to the register, and a register is written only if its value changes.", "quantifier": "for all histories", "why_tests_cant": "Unbounded histories.", "anchors": ["include/interrupt/dynamic_controller.hpp:update 356-383", "include/interrupt/dynamic_controller.hpp:write_if_changed"]}
{"id": "C38", "title": "Enabling then disabling an interrupt source restores the registers", "statement": "From a state where a resource or flow is off, enabling and then disabling it restores the software state, and all registers of affected interrupts to their previous computed values.", "quantifier": "for all reachable states and sources", "why_tests_cant": "All reachable states.", "anchors": ["include/interrupt/dynamic_controller.hpp:enable_one,disable_one,update"]}
{"id": "C39", "title": "An interrupt service routine runs exactly the active, enabled and pending interrupts", "statement": "Running an IRQ invokes the flows of an interrupt iff it has an active flow, its enable bit and its status bit are set and the same holds for all its ancestors; the status is cleared before, after or never according to the policy, exactly once per run; unknown IRQ numbers do nothing.", "quantifier": "for all interrupt trees and register contents", "why_tests_cant": "Unbounded trees and register states.", "anchors": ["include/interrupt/impl.hpp", "include/interrupt/policies.hpp:22-55", "include/interrupt/manager.hpp:run 64-71"]}
{"id": "C40", "title": "A binary log message decodes to what was logged", "statement": "For every level, module id, unit, string id and argument list, decoding the packet built by the MIPI builder yields back the type, string id, severity, module id, unit and argument values, provided each value fits its documented wire width; without that proviso the information lost is exactly the high bits.", "quantifier": "for all argument lists and values", "why_tests_cant": "Unbounded lists of 64-bit values.", "anchors": ["include/log_binary/catalog/mipi_builder.hpp", "include/log_binary/catalog/mipi_messages.hpp", "include/log_binary/catalog/arguments.hpp", "python/cib/mipi_messages.py"]}
{"id": "C41", "title": "A stream of log packets decodes unambiguously", "statement": "Concatenating the packets of any sequence of log calls and running the decoder over the bytes yields exactly the same sequence of messages.", "quantifier": "for all sequences of log calls", "why_tests_cant": "Unbounded sequences.", "anchors": ["include/log_binary/catalog/mipi_builder.hpp", "python/cib/log_decode.py", "python/cib/mipi_messages.py"]}
{"id": "C42", "title": "Build-version messages carry the whole version", "statement": "The version message built for (version, string) lets a reader recover the full version and string, in the smallest of the three formats that can hold it.", "quantifier": "for all versions below 2^64 and strings", "why_tests_cant": "2^64 versions.", "anchors": ["include/log_binary/catalog/mipi_builder.hpp:build_version 129-141"]}
{"id": "C43", "title": "String ids are unique and stable across builds", "statement": "In any history of catalog builds each fed with the previous stable catalog, every message keeps the id it was first given, distinct messages have distinct ids, new ids avoid the reserved ranges and ids used by earlier builds, provided explicitly pinned ids do not clash.", "quantifier": "for all histories of builds, message sets and reservations", "why_tests_cant": "Unbounded build histories.", "anchors": ["python/cib/gen_str_catalog.py:assign_ids 307-337", "python/cib/gen_str_catalog.py:read_stable", "python/cib/gen_str_catalog.py:write_json"]}
{"id": "C44", "title": "Distinct messages are never confused in the catalog", "statement": "Two log messages that differ in text or argument types get different catalog entries.", "quantifier": "for all pairs of messages", "why_tests_cant": "The key is a hash of texts; collisions cannot be found by sampling.", "anchors": ["python/cib/gen_str_catalog.py:key 212-213", "python/cib/gen_str_catalog.py:read_input"]}
{"id": "C45", "title": "Several stable catalogs are all honoured", "statement": "When several stable-string files are given, every message in any of them keeps its id.", "quantifier": "for all lists of stable files", "why_tests_cant": "All lists of files.", "anchors": ["python/cib/gen_str_catalog.py:read_stable"]}
{"id": "C46", "title": "Compile-time enum arguments decode to their names", "statement": "When a decoded message mentions compile-time enum values, each is replaced by the name of that value of that enum.", "quantifier": "for all message texts and enum tables", "why_tests_cant": "All texts.", "anchors": ["python/cib/mipi_messages.py:convert_ct_enums"]}
{"id": "C47", "title": "Argument lists with nested templates are split correctly", "statement": "Splitting the textual argument list of a catalog entry returns exactly the top-level comma-separated arguments, for any nesting of template brackets.", "quantifier": "for all lists of balanced argument strings", "why_tests_cant": "Unbounded nesting.", "anchors": ["python/cib/gen_str_catalog.py:find_arg_split_pos,split_args 17-37"]}
{"id": "C48", "title": "Nexus initialises each service from all its extensions", "statement": "For every configuration tree, the built service contains exactly the items of all extensions of that service that are reachable through included components and true compile-time conditions, each once; extending a service that is not exported is rejected.", "quantifier": "for all configuration trees", "why_tests_cant": "Unbounded trees.", "anchors": ["include/nexus/detail/nexus_details.hpp", "include/nexus/detail/components.hpp", "include/nexus/detail/config_details.hpp", "include/nexus/detail/extend.hpp", "include/nexus/detail/exports.hpp"]}
{"id": "C49", "title": "Callback services call every registered callback once, in order", "statement": "Calling a callback service invokes every registered callback exactly once with the given arguments, in the order of registration within an extension; callbacks of later extensions run before those of earlier extensions.", "quantifier": "for all configurations", "why_tests_cant": "Unbounded registrations.", "anchors": ["include/nexus/callback.hpp", "include/nexus/detail/nexus_details.hpp:78-98"]}
{"id": "C50", "title": "Using a service before initialisation panics, after it never does", "statement": "Before nexus init every service invocation panics (by type and by name) and after init it dispatches to the built service; initialisation affects exactly the exported services.", "quantifier": "for all sequences of init and service calls", "why_tests_cant": "All histories of calls.", "anchors": ["include/nexus/nexus.hpp", "include/nexus/service.hpp", "include/nexus/detail/*.hpp"]}
{"id": "C51", "title": "Runtime conditions combine by conjunction", "statement": "Nested runtime conditions on a component are true together exactly when every predicate is true; conjunction is associative, commutative and idempotent in effect, with `always` as unit.", "quantifier": "for all nestings and truth assignments", "why_tests_cant": "All nestings.", "anchors": ["include/nexus/detail/runtime_conditional.hpp:69-87"]}
{"id": "C52", "title": "The top-level lifecycle runs each phase once in order, then the main loop forever", "statement": "cib::top's main initialises the nexus, then runs the early-init, init and start flows once each in that order, then repeats only the main loop.", "quantifier": "for all numbers of main loop iterations", "why_tests_cant": "Unbounded executions.", "anchors": ["include/cib/top.hpp"]}
{"id": "C53", "title": "The documented Boolean simplification laws hold", "statement": "For every matcher m: m and always, always and m, m or never, never or m give the simplified m; m and never is never; m or always is always. For every leaf matcher m1 and any m2: m1 and not m1 is never, m1 or not m1 is always, not not m1 is m1, m1 or (m1 and m2) is m1 (absorption); not m1 and not m2 becomes not (m1 or m2).", "quantifier": "for all matchers and leaf vocabularies", "why_tests_cant": "Tests show the laws on single example matchers only; the laws are about all matcher types.", "anchors": ["docs/match.adoc: Boolean algebra with matchers", "include/match/and.hpp", "include/match/or.hpp", "include/match/not.hpp", "include/match/constant.hpp"]}
{"id": "C54", "title": "Relational field matchers combine as documented", "statement": "On one integral field, (f < a) and (f > b) is never exactly when a <= b+1, (f < a) or (f > b) is always exactly when b < a, the and (or) of two < matchers is < against the smaller (larger) constant, and the and of two == matchers is one of them when the constants agree and never otherwise.", "quantifier": "for all constants, widths and signednesses", "why_tests_cant": "The number of constant pairs is unbounded in practice.", "anchors": ["docs/match.adoc: Implication enables simplification", "include/msg/field_matchers.hpp:185-259"]}
{"id": "C55", "title": "Renaming a field changes only its name", "statement": "msg::rename_field yields a message in which the new name denotes the old field's location, type, default and matcher, the old name is gone, every other field is found unchanged under its own name, and the storage size is the same; it is refused when the old name does not exist or the new one already does.", "quantifier": "for all messages with unique field names and all pairs of names", "why_tests_cant": "Tests rename one field of one message; the claim is about every message and every name, including fields that sort equal.", "anchors": ["include/msg/message.hpp:822-853"]}
{"id": "C56", "title": "The capacities computed for a flow's containers always suffice", "statement": "The node and edge capacities the graph builder computes for its fixed-size sets, multimap and vector are enough at every stage of building and sorting the graph, so building never overflows a container.", "quantifier": "for all node sets with unique names, all edges and all enumeration orders", "why_tests_cant": "The peak sizes depend on the shape of the graph and on pop order; tests only build small graphs.", "anchors": ["include/flow/graph_common.hpp:14-35", "include/flow/graph_builder.hpp:71-171"]}
{"id": "C57", "title": "A built sequencer calls the functions its steps were declared with", "statement": "Building a sequencer gives exactly the declared steps, each with the forward and backward functions it was declared with, in an order respecting every >>, or is rejected.", "quantifier": "for all sequencer descriptions", "why_tests_cant": "Unbounded descriptions; the tests only ever star single steps.", "anchors": ["include/seq/step.hpp:30-44", "include/flow/dsl/walk.hpp:116-140", "include/flow/dsl/seq.hpp:21-23", "include/flow/dsl/par.hpp:19-21", "include/seq/impl.hpp:28-38"]}
{"id": "C58", "title": "Interrupts whose resource is off do not run", "statement": "Turning a resource off stops every interrupt that requires it from running its flows, and it stays stopped under any later operations that do not turn the resource on again.", "quantifier": "for all interrupt trees, all states and all histories", "why_tests_cant": "Unbounded histories and trees.", "anchors": ["docs/interrupts.adoc: resources", "include/interrupt/dynamic_controller.hpp:478-501", "include/interrupt/impl.hpp:63-76"]}
{"id": "C59", "title": "Manager initialisation enables exactly the interrupts that can run something", "statement": "manager::init with the default policy enables a top-level interrupt iff it has an active flow, and enables any other interrupt iff an active flow can be reached from it through interrupts that require no resources.", "quantifier": "for all interrupt trees and sets of active flows", "why_tests_cant": "All trees and all configurations of active services.", "anchors": ["include/interrupt/manager.hpp:19-57", "include/interrupt/dynamic_controller.hpp:450-471"]}
{"id": "C60", "title": "Explicit string ids are honoured", "statement": "A message logged with an explicit string id has that id in the catalog and in the generated code.", "quantifier": "for all histories of builds and all inputs", "why_tests_cant": "Depends on every other occurrence of the message in every input file.", "anchors": ["python/cib/gen_str_catalog.py:assign_ids 316-319", "python/cib/gen_str_catalog.py:read_input 340-357"]}
{"id": "C61", "title": "Every catalog symbol referenced by the program gets a definition", "statement": "For every catalog<...>() symbol in the input the generated C++ contains a specialisation of exactly that symbol, and only one.", "quantifier": "for all inputs", "why_tests_cant": "Unbounded inputs; the failing ones link only in combination.", "anchors": ["python/cib/gen_str_catalog.py:read_input 340-357", "python/cib/gen_str_catalog.py:write_cpp"]}
{"id": "C62", "title": "The catalog holds the text written in the source", "statement": "The text of a message in the catalog is the text of the format string in the source, for every format string.", "quantifier": "for all texts of Unicode characters", "why_tests_cant": "All texts; tests use short ASCII ones.", "anchors": ["python/cib/gen_str_catalog.py:from_cpp_type 168-185"]}
{"id": "C63", "title": "Module ids that pass the limit check fit the 7 bits they are sent in", "statement": "If the generator accepts the modules, every module id is between 0 and 127.", "quantifier": "for all histories of builds", "why_tests_cant": "Unbounded histories.", "anchors": ["python/cib/gen_str_catalog.py:check_module_limit 634-639", "include/log_binary/mipi_messages.hpp"]}
{"id": "C64", "title": "Extra JSON inputs are added without losing messages", "statement": "The messages of the build are in the JSON output whatever extra JSON inputs are given.", "quantifier": "for all extra inputs", "why_tests_cant": "All inputs.", "anchors": ["python/cib/gen_str_catalog.py:write_json 467-471"]}
{"id": "C65", "title": "An extension by name may be placed wherever one by type may", "statement": "cib::extend with a service name has the effect of cib::extend with the service type of that name, anywhere in a configuration.", "quantifier": "for all configurations, names and places", "why_tests_cant": "Placement is unbounded; the failing place is a compile error no test contains.", "anchors": ["include/nexus/detail/extend.hpp", "include/nexus/detail/runtime_conditional.hpp:18-48"]}
{"id": "C66", "title": "A message callback under runtime conditions keeps its function", "statement": "A message callback placed under runtime conditions calls, when they and its matcher hold, the function it was made with.", "quantifier": "for all callables and nestings of conditions", "why_tests_cant": "Tests use captureless lambdas only.", "anchors": ["include/nexus/detail/runtime_conditional.hpp:26-41", "include/msg/callback.hpp:104-119"]}
{"id": "C67", "title": "Packets from several threads reach each destination whole, in order, and all of them", "statement": "However log calls of several threads interleave, what a destination of the binary logger has received is a sequence of whole packets in which each thread's packets are in the order logged; logging never deadlocks, and when all calls have returned nothing is missing.", "quantifier": "for all numbers of threads, sequences of packets, destinations and interleavings", "why_tests_cant": "Interleavings are unbounded; tests are single threaded.", "anchors": ["include/log_binary/catalog/encoder.hpp:88-101"]}
{"id": "C68", "title": "Packets stay whole whatever writes them", "statement": "Packets logged at the same time are never mixed, whether they go through configured destinations of any types or through a writer from the logging environment.", "quantifier": "for all writers and interleavings", "why_tests_cant": "Needs a particular interleaving of two threads.", "anchors": ["include/log_binary/catalog/encoder.hpp:88-152", "include/log_binary/catalog/writer.hpp"]}
{"id": "C69", "title": "A destination keeps its state between log calls", "statement": "A destination object given to the binary logger's config sees its own earlier changes to itself: the n-th packet is handled in the state left by the n-1 packets before.", "quantifier": "for all destinations and packet sequences", "why_tests_cant": "All destinations in the tests have const call operators or static state.", "anchors": ["include/log_binary/catalog/encoder.hpp:103-152"]}
{"id": "C70", "title": "The text logger writes one complete line per call to every destination", "statement": "Each log call appends to each destination one line with time, level, module and message; lines of different calls can be told apart.", "quantifier": "for all sequences of calls and sets of destinations", "why_tests_cant": "Unbounded sequences; tests use one kind of iterator.", "anchors": ["include/log_fmt/logger.hpp:44-82"]}
{"id": "C71", "title": "A log call uses the innermost setting of each environment value", "statement": "The value a logger finds for a key is that of the last declaration before the call in the scopes around it (the call's own macro first), or none if there is none; declarations may stand in any block.", "quantifier": "for all nestings of scopes and declarations", "why_tests_cant": "All nestings.", "anchors": ["include/log/env.hpp", "include/log/log.hpp:73-90"]}
{"id": "C72", "title": "Fatal errors and failed assertions log once and panic with the same message", "statement": "CIB_FATAL logs its formatted message once at level FATAL in the environment of the call and then panics with that message and the remaining arguments; CIB_ASSERT does nothing if its expression is true and otherwise does the same with the text of the expression, for every expression.", "quantifier": "for all messages, expressions, arguments and environments", "why_tests_cant": "All expression texts.", "anchors": ["include/log/log.hpp:92-146"]}
{"id": "C73", "title": "The version is logged to the right logger in the environment of the call", "statement": "CIB_LOG_VERSION and CIB_LOG_V log the version once to the logger of the flavor, with the module and other values of the environment at the call.", "quantifier": "for all environments and loggers", "why_tests_cant": "Tests log versions in the default environment only.", "anchors": ["include/log/log.hpp:148-174"]}
{"id": "C74", "title": "A log call goes to the logger of its flavor and to no other", "statement": "A log call reaches exactly the logger configured for the flavor of its environment, and nothing if there is none, whatever other loggers are configured.", "quantifier": "for all environments and configurations", "why_tests_cant": "All combinations.", "anchors": ["include/log/log.hpp:34-62", "include/log/flavor.hpp"]}
{"id": "C75", "title": "A log environment set for a step or flow is used for its logs", "statement": "A step's logs use the environment set for the step's name, else that set for the flow's name, else that set for \"default\", else the library's.", "quantifier": "for all settings", "why_tests_cant": "Tests have a few settings, all different from the library's.", "anchors": ["include/flow/log.hpp:16-42", "include/flow/func_list.hpp:18-55"]}
{"id": "C76", "title": "A matcher's description says what the matcher does", "statement": "The text describe() gives for a matcher reads, with the usual meaning of and, or, not and parentheses, as the matcher itself; it can be read in one way only; matchers with the same text give the same answers, also after the simplifications a callback makes.", "quantifier": "for all matchers, leaf texts and messages", "why_tests_cant": "All nestings of connectives; an ambiguous text is only seen by reading it in two ways.", "anchors": ["include/match/bin_op.hpp:28-47", "include/match/not.hpp:27-35", "include/match/constant.hpp", "include/match/predicate.hpp", "include/msg/field_matchers.hpp:117-163", "include/msg/callback.hpp:33-101"]}
{"id": "C77", "title": "The log line for a message that did not match shows why", "statement": "Read with the values it shows, the line logged for a callback that did not match says false, and cannot be read to say anything else; the line for a callback that matched gives a condition that holds of the message.", "quantifier": "for all matchers, field values and messages", "why_tests_cant": "All nestings and all values, including negative ones.", "anchors": ["include/msg/callback.hpp:33-101", "include/msg/field_matchers.hpp:135-163"]}
{"id": "C78", "title": "Reserved string ids are read as written", "statement": "A comma-separated list of numbers and ranges, decimal or hexadecimal, reserves exactly the ids in those ranges, and the text the generator writes for a set of intervals is read back as the same set.", "quantifier": "for all lists of numbers and ranges", "why_tests_cant": "Unbounded lists and numbers.", "anchors": ["python/cib/gen_str_catalog.py:40-62"]}
{"id": "C79", "title": "Named arguments do not change from build to build", "statement": "A named argument written to the JSON and read back is written the same again, however many builds follow; what is read is what was written exactly when its end is not before the one before its beginning.", "quantifier": "for all names, positions and numbers of builds", "why_tests_cant": "Drift shows only after several builds.", "anchors": ["python/cib/gen_str_catalog.py:65-111"]}
{"id": "C80", "title": "The printf format in the XML prints what the message prints", "statement": "The format written for a message has its text with one conversion per field, in the order of the fields, each the conversion of the argument of that field.", "quantifier": "for all format strings of text, {} and {:spec} and all argument types", "why_tests_cant": "All orders of the two kinds of fields and all literal texts.", "anchors": ["python/cib/gen_str_catalog.py:533-593"]}
{"id": "C81", "title": "The text of a message in the XML is its text", "statement": "An XML reader gets from the format or module element exactly the text that was put there.", "quantifier": "for all texts", "why_tests_cant": "All texts.", "anchors": ["python/cib/gen_str_catalog.py:530", "python/cib/gen_str_catalog.py:593", "python/cib/gen_str_catalog.py:729-743"]}
{"id": "C82", "title": "The generated C++ is the specialisations and nothing else", "statement": "Whatever the texts of messages and modules are, the code generated for one is its specialisation alone; the text stays inside its comment.", "quantifier": "for all texts, argument lists, symbols and ids", "why_tests_cant": "All texts.", "anchors": ["python/cib/gen_str_catalog.py:372-390"]}
{"id": "C83", "title": "The XML names the enumeration of every enumeration argument", "statement": "For each argument of a message whose type is an enumeration of the catalog, the XML gives the argument's position and the enumeration's number.", "quantifier": "for all argument lists and sets of enumerations", "why_tests_cant": "Tests have one enumeration argument.", "anchors": ["python/cib/gen_str_catalog.py:770-790"]}
{"id": "C84", "title": "The JSON keeps every known name of an enumerator", "statement": "The decoder finds for an enumeration value the name this build gives it, else the name an extra input gives it.", "quantifier": "for all enumerations, extra inputs and values", "why_tests_cant": "Tests use at most one extra input.", "anchors": ["python/cib/gen_str_catalog.py:455-485", "python/cib/mipi_messages.py:41-63"]}
{"id": "C85", "title": "A decoded log line is the line the program would have printed", "statement": "The decoder prints for a message its severity, module and the text that formatting the message with its values gives.", "quantifier": "for all texts of characters, doubled braces and {}, and all values", "why_tests_cant": "All texts and values.", "anchors": ["python/cib/mipi_messages.py:41-63", "python/cib/mipi_messages.py:180-202"]}
{"id": "C86", "title": "The single release header is the library", "statement": "Compiling the generated release header gives the same lines of code, in the same order, as compiling the original header, whichever preprocessor conditions hold.", "quantifier": "for all sets of headers, include graphs and conditions", "why_tests_cant": "All include graphs, including cycles, and all combinations of conditions.", "anchors": ["tools/gen_release_header.py"]}
{"id": "C87", "title": "The release header includes what the code needs, in time, and nothing else", "statement": "Every system header that precedes a line of code in the original precedes it in the release header, and the release header includes no system header that the original does not.", "quantifier": "for all sets of headers, include graphs and conditions", "why_tests_cant": "All include graphs and all combinations of conditions.", "anchors": ["tools/gen_release_header.py", "include/log/log.hpp:13-15"]}
{"id": "C88", "title": "The release header can always be made and has every line once", "statement": "The script ends on every set of headers, also when headers include each other, and prints no line more often than it is written in the headers.", "quantifier": "for all sets of headers and include graphs", "why_tests_cant": "All include graphs, including cycles of any length.", "anchors": ["tools/gen_release_header.py"]}
{"id": "C89", "title": "The log of a flow tells what ran", "statement": "Running a named flow logs its start, then for each step that runs its kind and name immediately before the step is called, then its end; a flow without a name logs nothing; a line names exactly one step.", "quantifier": "for all flows, conditions, step effects and states", "why_tests_cant": "All truth assignments, which may change while the flow runs.", "anchors": ["include/flow/func_list.hpp:18-110", "include/flow/log.hpp:43-60"]}
{"id": "C90", "title": "The graphviz text of a flow reads as the flow", "statement": "A DOT reader gets from the text exactly the start, the end, the steps and the sequences of the flow.", "quantifier": "for all flows and names", "why_tests_cant": "All names and all flows.", "anchors": ["include/flow/viz_builder.hpp:18-35", "include/flow/viz_builder.hpp:95-160"]}
{"id": "C91", "title": "The mermaid text of a flow reads as the flow", "statement": "A mermaid reader gets from the text one box per step with its name and a shape for its kind, and one arrow per sequence between the right boxes, with the sequence's condition.", "quantifier": "for all flows, names and conditions", "why_tests_cant": "All names and all flows.", "anchors": ["include/flow/viz_builder.hpp:37-92", "include/flow/viz_builder.hpp:95-160"]}
{"id": "C92", "title": "A step logs with the environment declared for it", "statement": "A step logs with the environment declared for its name, otherwise with the one declared for its flow, otherwise with the one declared as default, otherwise with the library's default.", "quantifier": "for all declarations and names", "why_tests_cant": "All combinations of declarations, including of the library's own environment.", "anchors": ["include/flow/log.hpp:14-41", "include/flow/func_list.hpp:21-26"]}
{"id": "C93", "title": "Every message and module of a program is read from its symbols", "statement": "From the listing of a program's undefined symbols, the generator reads exactly the messages and modules of the program, in order, with their texts, argument types, ids, tags and named arguments, and ignores every other symbol.", "quantifier": "for all listings, items, argument types, texts and both ways of printing closing brackets", "why_tests_cant": "All texts, nested argument types and other symbols; the expressions backtrack.", "anchors": ["python/cib/gen_str_catalog.py:40-63", "python/cib/gen_str_catalog.py:71-80", "python/cib/gen_str_catalog.py:119-128", "python/cib/gen_str_catalog.py:168-183", "python/cib/gen_str_catalog.py:241-252", "python/cib/gen_str_catalog.py:287-297", "python/cib/gen_str_catalog.py:341-348"]}
{"id": "C94", "title": "The definitions written are definitions of the symbols read", "statement": "The type the generator writes for a message or module is, as C++, the type in the symbol it was read from, so that the definition resolves the symbol.", "quantifier": "for all items and both ways of printing closing brackets", "why_tests_cant": "All texts, argument types, tags and named arguments.", "anchors": ["python/cib/gen_str_catalog.py:100-101", "python/cib/gen_str_catalog.py:137-138", "python/cib/gen_str_catalog.py:209-210", "python/cib/gen_str_catalog.py:267-268"]}
{"id": "C95", "title": "The encodings of arguments are read from their text", "statement": "From the text of an argument's encoding the generator gets the encoding, the enumeration or type, and the underlying type; a type that is not an encoding is refused.", "quantifier": "for all encodings and type names, including names with commas and brackets", "why_tests_cant": "All type names.", "anchors": ["python/cib/gen_str_catalog.py:533-545"]}
{"id": "C96", "title": "Every enumeration logged is declared once", "statement": "For each enumeration among the arguments the generated source has exactly one declaration, with its scopes and underlying type; an enumeration in an anonymous namespace is refused.", "quantifier": "for all lists of messages and arguments", "why_tests_cant": "All lists of arguments, scopes and orders.", "anchors": ["python/cib/gen_str_catalog.py:359-369", "python/cib/gen_str_catalog.py:396-398", "python/cib/gen_str_catalog.py:752-758"]}
{"id": "C97", "title": "Owners and views of one storage show the same values", "statement": "In any program of declarations of arrays, owners and views and of sets, reads and comparisons, every read gives the number whose bits stand in the field's places of the storage referred to: a value set through one handle is read through every other on the same storage, fields that do not overlap keep their values, and a copy is equivalent to what it was made from until one of them is written.", "quantifier": "for all programs of any length over storages of 8, 16 and 32 bit elements, all definitions with distinct names and fields that do not overlap", "why_tests_cant": "All programs, definitions and contents.", "anchors": ["include/msg/message.hpp:349-375", "include/msg/message.hpp:427-488", "include/msg/message.hpp:490-590", "include/msg/message.hpp:656-682"]}
{"id": "C98", "title": "Owners have storages of their own and const views do not write", "statement": "An owner shares its storage with nothing declared before it; a storage changes only by a statement that writes to it, directly or through a handle on it; nothing is written through a const view, nor is a mutable view made from one.", "quantifier": "for all programs, states, definitions and element types", "why_tests_cant": "All programs and all orders of declarations.", "anchors": ["include/msg/message.hpp:427-488", "include/msg/message.hpp:490-590"]}
{"id": "C99", "title": "Values of a field's type read back", "statement": "A value of a field's integer type that can be represented in the field's bits reads back as it was written, negative values included; can_hold tells which unsigned values do.", "quantifier": "for all fields, types, values and storages of 8, 16 and 32 bit elements", "why_tests_cant": "All values and layouts.", "anchors": ["include/msg/field.hpp:235-256", "include/msg/field.hpp:420-444", "include/msg/field.hpp:469-471"]}
{"id": "C100", "title": "Fields of a single unsigned integer", "statement": "Extracting a field from an unsigned integer gives the number in the field's bits; inserting changes those bits only and reads back; a field outside the integer, or one that is const or uninitialized on insertion, is refused at compile time.", "quantifier": "for all fields, integers and values", "why_tests_cant": "All layouts and integers.", "anchors": ["include/msg/field.hpp:425-430", "include/msg/field.hpp:439-444"]}
{"id": "C101", "title": "Structured bindings follow the declaration", "statement": "The names of a structured binding of a message are bound to the values of its fields in the order in which the message declares them.", "quantifier": "for all messages and contents", "why_tests_cant": "All messages.", "anchors": ["include/msg/message_destructure.hpp:12-26", "include/msg/message.hpp:318-345"]}
{"id": "C102", "title": "Conditions on fields given by name", "statement": "A condition built of comparisons of fields given by name, combined with not, and, or and in, compiles for exactly the messages that have these fields, and the matcher made accepts exactly the messages, and raw data, in which the condition holds; a handler runs exactly the callbacks whose condition and field constraints hold.", "quantifier": "for all conditions, messages, field types and contents", "why_tests_cant": "All nested conditions, constants and contents.", "anchors": ["include/msg/message.hpp:44-117", "include/msg/message.hpp:119-150", "include/msg/field_matchers.hpp:134-141", "include/msg/callback.hpp:27-70"]}
{"id": "C103", "title": "A log line shows the call", "statement": "Build a program's catalog from its undefined symbols, link the program with the definitions written, run it, and decode the bytes it sent with the JSON file written: the decoder prints one line per log call, in order, with the call's level, its module, and its format string with the arguments in their places, enumerators by name.", "quantifier": "for all programs, listings of symbols, earlier catalogs, log calls, argument types and values", "why_tests_cant": "Joins the generator, the linker, the encoder and the decoder over all programs and histories of catalogs.", "anchors": ["python/cib/gen_str_catalog.py:282-360", "python/cib/gen_str_catalog.py:742-806", "include/log_binary/catalog/encoder.hpp:97-126", "python/cib/log_decode.py:39-82", "python/cib/mipi_messages.py:123-202"]}
{"id": "C104", "title": "Old logs stay readable with later catalogs", "statement": "The log of a program decoded with the catalog of any later build, made in any number of steps each given the catalog of the one before and none of them forgetting old entries, shows the lines it showed with its own catalog.", "quantifier": "for all programs, logs and sequences of builds of any length", "why_tests_cant": "All sequences of builds and all sets of messages added and removed.", "anchors": ["python/cib/gen_str_catalog.py:282-360", "python/cib/gen_str_catalog.py:742-806", "python/cib/log_decode.py:39-82"]}
{"id": "C105", "title": "A decoded log shows the source", "statement": "Whatever log calls of a source text are executed, in whatever order, the decoder prints one line for each that goes to the binary logger, with the level and module in force at the place of the call in the text, and the arguments in its format string; a string or module id in force there is the one in the catalog.", "quantifier": "for all source texts, nestings of scopes and environments, configurations of loggers, executions and argument values", "why_tests_cant": "Any nesting of scopes, environments and modules with any calls, through generator, linker, encoder and decoder.", "anchors": ["include/log_binary/catalog/encoder.hpp:28-127", "include/log/log.hpp:43-100", "include/log/module.hpp:11-27", "include/log_binary/string_id.hpp:1-19", "include/log_binary/module_id.hpp:1-19", "python/cib/gen_str_catalog.py:742-806", "python/cib/log_decode.py:39-82"]}
{"id": "C106", "title": "Logs of several threads decode to each thread's lines", "statement": "When several threads log to the same destinations, each with a critical section, what a destination has got decodes at any time at which none of them is writing to it, without an error, to lines among which those of each thread are the lines of its first calls, in order; when all threads are done, of all its calls.", "quantifier": "for all source texts, numbers of threads, executions, destinations and interleavings word by word", "why_tests_cant": "All interleavings of all threads, through generator, encoder, critical sections and decoder.", "anchors": ["include/log_binary/catalog/encoder.hpp:71-127", "python/cib/mipi_messages.py:123-202", "python/cib/log_decode.py:39-82"]}
{"id": "C107", "title": "Concurrent use of the interrupt controller", "statement": "When several threads enable, disable, refresh and initialise interrupts and service routines read enable fields at the same time, whenever no thread is inside, the enables, the shadow values, the registers, the writes and the answers are those of the same actions done one after the other; so the hardware follows the documented rule.", "quantifier": "for all systems of interrupts, numbers of threads, sequences of operations and interleavings access by access", "why_tests_cant": "All interleavings of all accesses to memory and hardware of any number of threads.", "anchors": ["include/interrupt/dynamic_controller.hpp:333-530", "include/interrupt/impl.hpp:12-26", "include/interrupt/manager.hpp:64-71"]}
{"id": "C108", "title": "A project does what its components say", "statement": "A program that initialises nexuses and runs services does this and nothing else: each service called is that of the nexus initialised last that exports it (a panic if there is none); a flow runs the steps its components add, each once, in an order the components allow, skipping a step whose conditions do not hold at that moment, and logs its start, steps and end; a callback service calls every function added; and the same inside the functions, which may run services, by type, by name or in their own nexus, and initialise nexuses. A program whose services do not run themselves in turn ends.", "quantifier": "for all configurations of components, conditions, functions, worlds, sequences of operations and nesting of services, and all orders of the hash containers", "why_tests_cant": "All projects and all ways services call each other.", "anchors": ["include/nexus/nexus.hpp", "include/nexus/detail/", "include/nexus/callback.hpp:10-80", "include/flow/func_list.hpp:21-53", "include/flow/graph_builder.hpp:215-290", "include/flow/run.hpp", "include/nexus/service.hpp"]}
{"id": "C109", "title": "A project started by cib::top", "statement": "main runs the early runtime init, runtime init and runtime start flows and then the main loop for ever, all of the project's nexus, each as its components say; if everything the functions run is exported, nothing panics; and it always goes on.", "quantifier": "for all projects, functions, worlds and numbers of rounds of the main loop", "why_tests_cant": "The main loop does not end, and projects are unbounded.", "anchors": ["include/cib/top.hpp:13-69", "include/nexus/nexus.hpp"]}
{"id": "C110", "title": "The order of independent steps does not matter", "statement": "If two steps that the components put in no order, not even through other steps, do not change each other's effect or conditions, every order the components allow leads to the same state with the same functions called as often; so a flow as built has the same effect whatever order the hash containers of the graph builder have.", "quantifier": "for all configurations, states, effects of functions and container orders", "why_tests_cant": "All orders of all flows.", "anchors": ["include/flow/graph_builder.hpp:154-290", "include/flow/func_list.hpp:21-53"]}
{"id": "C111", "title": "The arrangement of components does not matter", "statement": "Putting components in another order, nesting or flattening them, splitting or merging an extension or the exports, spreading a runtime condition over its parts or resolving a constexpr condition changes neither whether the project compiles nor the steps of a flow, the orders allowed or the functions of a callback service, if every name extended by name means one service.", "quantifier": "for all configurations, rearrangements in any number of moves, and container orders", "why_tests_cant": "All configurations and all rearrangements.", "anchors": ["include/nexus/config.hpp", "include/nexus/detail/config_details.hpp:18-35", "include/nexus/detail/components.hpp:10-21", "include/nexus/detail/extend.hpp:9-35", "include/nexus/detail/exports.hpp:15-26", "include/nexus/detail/runtime_conditional.hpp:18-48", "include/nexus/detail/constexpr_conditional.hpp:14-36"]}
{"id": "C112", "title": "Interrupts serve the flows of components", "statement": "An interrupt is active exactly if a component adds a step to a flow of an interrupt at or below it; when interrupts are taken one after the other at any point of a program, every flow served runs as its components say, in the world as it then is.", "quantifier": "for all projects, trees of interrupts, hardware, programs before and sequences of interrupts", "why_tests_cant": "All projects with all interrupt trees.", "anchors": ["include/interrupt/config.hpp:95-125", "include/interrupt/impl.hpp:41-104", "include/flow/func_list.hpp:39"]}
{"id": "C113", "title": "Messages reach the callbacks that components declare", "statement": "When a program sends messages to the services of a project, each message goes, in the nexus initialised last that exports the service or in the nexus named, through the callbacks the components give to that service, later extensions first; each is called exactly if, when its turn comes, its matcher and its message type's field constraints hold of the message and the runtime conditions around it hold in the world as it then is; the result tells whether one was called and otherwise an error is logged; a service of no nexus panics; and the same for the messages that callables send, the nexuses they initialise and the actions they do in between. A program in which callables send only lower ranked messages ends. This for matchers within the classes the library simplifies correctly (C02, C19, C20) and callables that are not pointers under conditions (C66).", "quantifier": "for all configurations of components, conditions, matchers, messages, worlds, callables and nesting of messages", "why_tests_cant": "All projects, with callbacks that change the conditions of the callbacks after them.", "anchors": ["include/msg/service.hpp", "include/msg/indexed_service.hpp", "include/msg/handler_interface.hpp:9-43", "include/msg/handler_builder.hpp:11-32", "include/msg/handler.hpp:12-41", "include/msg/callback.hpp:24-120", "include/msg/detail/indexed_handler_common.hpp:16-66", "include/nexus/detail/runtime_conditional.hpp:18-48", "include/nexus/service.hpp"]}
{"id": "C114", "title": "Indexing services makes no difference to a project", "statement": "Making any of the services of a project indexed services, over any fields, changes neither which callbacks run, in which order, nor the effects and results, for whole programs with nested messages; only the reasons logged for unclaimed messages go away, and is_match may give a different answer.", "quantifier": "for all projects whose callbacks can be indexed, programs, messages and worlds, and any two choices of indexed services", "why_tests_cant": "All projects, all programs.", "anchors": ["include/msg/indexed_service.hpp", "include/msg/detail/indexed_builder_common.hpp:130-205", "include/msg/detail/indexed_handler_common.hpp:16-66", "include/msg/handler.hpp:12-41"]}
{"id": "C115", "title": "From the values given to the callbacks called", "statement": "A program that constructs messages from values, and sends them as storage, has the callbacks called whose declarations hold of the values given or else the defaults, of the type of each field and as the bits of the field keep them; also for messages that callables construct from the values they read.", "quantifier": "for all field tables, layouts, element widths up to 32 bits, values, projects, programs and worlds", "why_tests_cant": "All layouts, values and projects.", "anchors": ["include/msg/message.hpp:189-330", "include/msg/field.hpp:215-260", "include/msg/field_matchers.hpp:134-150", "include/msg/handler.hpp:12-41", "include/msg/callback.hpp:24-120"]}
{"id": "C116", "title": "The XML collateral reads back as the catalog", "statement": "The XML file that the generator writes is read by any XML reader as one document, which is the client, its guid, the enumerations, the modules and the messages of the catalog, with the texts as the generator converts them, whatever characters are in the names and texts.", "quantifier": "for all clients, versions, guids, enumerations, modules and messages, with all texts and all ids", "why_tests_cant": "All texts: unit tests look at substrings of the file and have no text with special characters; that a reader recovers the catalog is a statement about all of them.", "anchors": ["python/cib/gen_str_catalog.py:503-637"]}
{"id": "C117", "title": "A message is found in the XML collateral by its id", "statement": "Looking up an id in the XML file under the mask given there finds exactly the text of the message with that id, and nothing if there is none.", "quantifier": "for all catalogs with distinct ids and all ids", "why_tests_cant": "All ids and catalogs.", "anchors": ["python/cib/gen_str_catalog.py:503-637"]}
{"id": "C118", "title": "The enumerations of the generated source are all found", "statement": "The enumerations in the catalog are those in the translation unit of the generated C++ file, wherever they are nested and however often they are declared, under their qualified names, with exactly their enumerators and values; different enumerations stay apart.", "quantifier": "for all trees of declarations", "why_tests_cant": "All nestings and redeclarations.", "anchors": ["python/cib/gen_str_catalog.py:422-449", "python/cib/gen_str_catalog.py:773-778"]}
{"id": "C119", "title": "The generated source defines every message and module once", "statement": "After a run the C++ file, as a compiler sees it, has the includes, the declarations of the enumerations, and for every message and every module of the listing exactly one definition of its type's id, and nothing else.", "quantifier": "for all listings, catalogs, headers, command lines and texts", "why_tests_cant": "All listings; a compiler ignores the comments, which hold arbitrary texts.", "anchors": ["python/cib/gen_str_catalog.py:359-420", "python/cib/gen_str_catalog.py:742-806", "python/cib/gen_utils.py:6-16"]}
{"id": "C120", "title": "The files of one run agree", "statement": "After a run that ends well the C++ file, the JSON file and the XML file give every message of the listing the same id and the same text: the C++ defines it, the JSON catalog holds it, and looking the id up in the XML gives the text; the enumerations in the JSON file are those of the C++ file; no other file changes.", "quantifier": "for all listings, previous catalogs, options and enumerations", "why_tests_cant": "All listings and catalogs, and three files written by three functions.", "anchors": ["python/cib/gen_str_catalog.py:372-420", "python/cib/gen_str_catalog.py:452-501", "python/cib/gen_str_catalog.py:503-637", "python/cib/gen_str_catalog.py:742-806"]}
{"id": "C121", "title": "A run that fails leaves the files as they were", "statement": "If the generator ends with an exception the files on the disk are those from before the run, so that a later run finds the stable catalog that the last good run wrote.", "quantifier": "for all listings, options and files", "why_tests_cant": "All points of failure.", "anchors": ["python/cib/gen_str_catalog.py:393-420", "python/cib/gen_str_catalog.py:742-806"]}
{"id": "C122", "title": "The baked tables of an indexed service are its indices", "statement": "An indexed service dispatches through lookup tables made at compile time; for every message the handlers that run, the result, the errors logged and the answer of is_match are those of the index maps the tables were made from, so that callbacks that are single conjunctions run exactly when they accept the message, in order.", "quantifier": "for all sets of callbacks and index fields of all types (signed and unsigned, bool, enumerations of 8 to 64 bits), for which the build succeeds, and all messages", "why_tests_cant": "All callbacks and messages: the table chosen depends on every constant of every callback.", "anchors": ["include/msg/indexed_builder.hpp:16-85", "include/msg/detail/indexed_handler_common.hpp:16-64", "include/msg/detail/indexed_builder_common.hpp:64-205", "include/lookup/lookup.hpp:10-14"]}
{"id": "C123", "title": "An indexed service within its capacities can be built", "statement": "A service with at most 256 callbacks, whose indexed fields are compared with at most 512 constants each, compiles.", "quantifier": "for all callbacks, index fields and constants", "why_tests_cant": "All sets of constants; each test compiles one of them.", "anchors": ["include/msg/detail/indexed_builder_common.hpp:123-127", "include/msg/indexed_builder.hpp:53-85", "include/lookup/pseudo_pext_lookup.hpp:185-260", "include/lookup/pseudo_pext_lookup.hpp:350-469"]}
{"id": "C124", "title": "Selection is the same on every processor and at compile time", "statement": "select and select_lt give at run time on an ARC processor, where they are assembly, what they give at compile time and elsewhere; a linear lookup gives the value of the entry with the key, or the default, everywhere.", "quantifier": "for all key types, keys, values and lists of entries", "why_tests_cant": "The assembly is not run by the unit tests on a host; all keys.", "anchors": ["include/lookup/detail/select.hpp:7-91", "include/lookup/linear_search_lookup.hpp:14-24"]}
{"id": "C125", "title": "The never-matcher validator rejects what never matches", "statement": "With never_matcher_validator a service does not compile exactly if it has a callback that accepts no message.", "quantifier": "for all callbacks and index fields", "why_tests_cant": "All matchers; a test shows one that is rejected.", "anchors": ["include/msg/detail/indexed_builder_common.hpp:31-62", "include/msg/detail/indexed_builder_common.hpp:144-166"]}
{"id": "C126", "title": "The condition of a callback is about the fields of its message, however the data comes", "statement": "A service may be given an array, an owning message or a view, and a callback's condition may contain predicates taking views, owners, arrays or anything; it is evaluated without going out of bounds and is true exactly if the values of the message's fields in that data satisfy it.", "quantifier": "for all field tables and definitions, conditions, kinds of predicates, and data of all lengths and contents", "why_tests_cant": "All data and definitions; the conversions chosen depend on the whole condition.", "anchors": ["include/msg/message.hpp:684-735", "include/msg/callback.hpp:26-47", "include/msg/field_matchers.hpp:134-150", "include/match/predicate.hpp:15-30", "include/msg/message.hpp:591-618"]}
{"id": "C127", "title": "A callable sees the fields of its message, whatever it takes", "statement": "A callable that takes a view, an owner, or any of them, in its call operator or in a call operator template, reads from its parameter the values the fields have in the data given to the service.", "quantifier": "for all definitions, kinds of parameters and of data, and contents", "why_tests_cant": "All combinations of what is given and what is taken, and all contents.", "anchors": ["include/msg/message.hpp:684-735", "include/msg/message.hpp:431-471", "include/msg/message.hpp:526-542", "include/msg/callback.hpp:40-44"]}
{"id": "C128", "title": "Callables cannot change what a service was given as const", "statement": "After a service has handled an array, an owning message or a const view the data is as before, whatever its callables do with their parameters and copies; each callable was called once if its condition holds of that data, and the result says whether one was.", "quantifier": "for all services, all programs in callables, and all data", "why_tests_cant": "All programs that callables may contain.", "anchors": ["include/msg/message.hpp:684-735", "include/msg/message.hpp:431-471", "include/msg/handler.hpp:25-40", "include/msg/detail/indexed_handler_common.hpp:49-64"]}
{"id": "C129", "title": "A callable runs only on a message that satisfies its condition then", "statement": "Also when a callable changes the message through a mutable view, each later callable is called exactly if its condition holds of the message as it is when its turn comes.", "quantifier": "for all services, all programs in callables, and all data", "why_tests_cant": "All programs that callables may contain, and all orders.", "anchors": ["include/msg/handler.hpp:25-40", "include/msg/callback.hpp:30-47", "include/msg/detail/indexed_handler_common.hpp:49-64", "include/msg/detail/indexed_builder_common.hpp:146-166"]}
{"id": "C130", "title": "An indexed service calls what a plain service calls", "statement": "Given the same data and callbacks, an indexed service calls the callables a plain one calls, returns the same and complains when it does.", "quantifier": "for all callbacks, index fields and data", "why_tests_cant": "All data and callbacks.", "anchors": ["include/msg/detail/indexed_handler_common.hpp:16-64", "include/msg/detail/indexed_builder_common.hpp:123-166", "include/msg/field_matchers.hpp:134-141"]}
{"id": "C131", "title": "Simplification is final", "statement": "Simplifying a matcher that has been simplified gives it back. So for every matcher m, composite ones included, m and not m is never, m or not m is always, and not not m is the simplified m.", "quantifier": "for all matchers and leaf vocabularies", "why_tests_cant": "All matcher expressions of any depth; every test of the laws takes a leaf.", "anchors": ["include/match/and.hpp:27-40", "include/match/or.hpp:27-40", "include/match/not.hpp:37-56", "include/match/bin_op.hpp:49-60", "include/match/ops.hpp:14-30", "docs/match.adoc:130-143"]}
{"id": "C132", "title": "The configuration text tells the interrupt configuration", "statement": "Two managers whose config() give the same text have the same configuration: the same interrupts in the same order and nesting, each of the same kind, with the same name, number, priority, fields, policies and flows.", "quantifier": "for all trees of interrupts, names, numbers, priorities and types of fields, policies and flows", "why_tests_cant": "The tests compare the texts of single configurations; that different configurations have different texts is about all pairs of trees of any depth.", "anchors": ["include/interrupt/manager.hpp:59-62", "include/interrupt/config.hpp:38-64", "include/interrupt/config.hpp:146-148", "include/interrupt/config.hpp:184-186", "include/interrupt/concepts.hpp:82-101"]}
{"id": "C133", "title": "A described message shows what its fields hold", "statement": "Logging a description of a message as text gives the name of the message and, for each of its fields in the order of their places, its name and in hexadecimal the number that get would return; two messages of a type give the same line exactly when all their fields hold the same.", "quantifier": "for all messages of any number of fields, places, integral and enumeration types, contents, and texts around the description", "why_tests_cant": "The tests describe a few messages; that every field is shown with its own value and no two contents look alike is about all messages and all contents.", "anchors": ["include/msg/message.hpp:260-274", "include/msg/field.hpp:466-468", "include/log_fmt/logger.hpp:28-35", "include/log_fmt/logger.hpp:65-71"]}
{"id": "C134", "title": "A description sent in binary decodes to the line of the text logger", "statement": "When a description of a message is logged in binary, the decoder prints from the packet and the catalog the same line that the text logger would print.", "quantifier": "for all messages, contents, types of fields, platforms, identifiers and bytes that follow the packet", "why_tests_cant": "The tests of the logger and those of the decoder each run on one side; that the two sides agree is about all types and values of fields.", "anchors": ["include/msg/message.hpp:260-274", "include/msg/field.hpp:466-468", "include/log_binary/catalog/mipi_builder.hpp:44-58", "python/cib/mipi_messages.py:42-63", "python/cib/mipi_messages.py:177-202"]}
{"id": "C135", "title": "The policies of enable and disable count in any order", "statement": "A call of enable or disable propagates and treats unknown flows and resources as the policies among its arguments say, whatever their order and whatever else is given; without such a policy it does not propagate and refuses unknowns; of two policies on one matter the first counts.", "quantifier": "for all trees of interrupts, registers, states, items, names and lists of policies", "why_tests_cant": "The tests call enable with one policy or none; order and combinations are about all lists of policies.", "anchors": ["include/interrupt/dynamic_controller.hpp:168-248", "include/interrupt/dynamic_controller.hpp:478-530"]}
{"id": "C136", "title": "Initialization starts what its policy makes active", "statement": "After init with a policy, the enable field of an interrupt is set exactly when the policy makes the interrupt and all its resources active and makes active a flow of it or something below it that starts.", "quantifier": "for all trees of interrupts, registers, policies, and interrupts that are already enabled", "why_tests_cant": "The tests initialize a small tree with a few policies; that the registers show the policy is about all trees and policies.", "anchors": ["include/interrupt/policies.hpp:120-154", "include/interrupt/dynamic_controller.hpp:393-471"]}
{"id": "C137", "title": "The errors of a flow name exactly what is wrong", "statement": "A flow rejected for missing steps is reported with the names of exactly the steps that are used and not added, each once; one rejected for duplicates with exactly the steps added more than once; one rejected for weak conditions with one error for each predicate that a step of a sequence needs and the sequence lacks. A flow that is built has no errors.", "quantifier": "for all flow descriptions, flow names, orders of names and containers", "why_tests_cant": "The tests of failures check the text of an error of one small flow each; that nothing is left out or wrongly blamed is about all descriptions.", "anchors": ["include/flow/graph_builder.hpp:35-40", "include/flow/graph_builder.hpp:82-113", "include/flow/graph_builder.hpp:184-213"]}
{"id": "C138", "title": "The error for a cycle lists the edges of the cycle", "statement": "The error of a flow with a cycle lists, as the edges involved in the cycle, the sequences that are part of a cycle and no others, each once.", "quantifier": "for all flow descriptions, flow names and containers", "why_tests_cant": "The test looks at the error of one flow in which every edge is part of the cycle; edges before and after cycles are about all descriptions.", "anchors": ["include/flow/graph_builder.hpp:59-62", "include/flow/graph_builder.hpp:139-181", "include/flow/graph_builder.hpp:244-272"]}
{"id": "C139", "title": "A request receives the first reply that comes after it is sent", "statement": "A request made with send and then_receive receives the values of the first run of its trigger after it is started, followed by its own arguments, exactly once; replies to other triggers, earlier replies and later ones do not reach it, a reply made by the sending function itself is not missed, and a request without a reply goes on waiting. The sending function is called once, after the request waits.", "quantifier": "for all programs of requests and runs of triggers, in functions that send and receive to any depth, and for all values", "why_tests_cant": "The tests make one request that is answered at once, twice; requests that overlap, nest and share triggers are about all programs.", "anchors": ["include/msg/send.hpp:20-48", "include/msg/send.hpp:49-56", "include/msg/send.hpp:57-73"]}
{"id": "C140", "title": "The decoder puts the lines of a log where it is asked to", "statement": "The program that decodes a log prints the lines of all the bytes of its input, however they are read in chunks, or writes them to the file named by --output if there is one; without its files it fails and prints nothing.", "quantifier": "for all command lines, files, catalogs, sizes of chunks and contents", "why_tests_cant": "No test runs the program with a file for the output, or with logs larger than a chunk.", "anchors": ["python/cib/log_decode.py:13-21", "python/cib/log_decode.py:37-51", "python/cib/log_decode.py:54-81"]}
{"id": "C141", "title": "A log that is cut short shows the first lines of the whole", "statement": "Decoding the first bytes of a log shows the lines of the messages that are whole, as decoding the whole log would, and never a message with other values.", "quantifier": "for all catalogs, logs and places where the log is cut", "why_tests_cant": "Tests decode whole messages; where a log may be cut, and in which arguments, is about all logs and catalogs.", "anchors": ["python/cib/log_decode.py:37-51", "python/cib/mipi_messages.py:42-51", "python/cib/mipi_messages.py:158-202"]}
{"id": "C142", "title": "What a call of gen_str_catalog says reaches the generator", "statement": "The generator of string catalogs runs with exactly the inputs, outputs, versions, reserved ids, limits and switches that are given as arguments of the CMake function, and with the defaults for what is not given.", "quantifier": "for all calls of the function, values of the caller's variables and texts of arguments", "why_tests_cant": "Tests call the function with a few fixed arguments; which values CMake or the shell drop or change is about all of them.", "anchors": ["cmake/string_catalog.cmake:1-101", "python/cib/gen_str_catalog.py:642-725"]}
{"id": "C143", "title": "After a build the catalog is up to date with its inputs", "statement": "After a build, the outputs are what the generator writes from the present contents of all the files it reads.", "quantifier": "for all histories of edits and builds", "why_tests_cant": "It is about all sequences of edits and builds, which tests of single runs do not see.", "anchors": ["cmake/string_catalog.cmake:63-101"]}
{"id": "C144", "title": "The file of a flow graph has the graph that the compiler shows", "statement": "When the build of a debug target fails by showing a graph, the file made by generate_flow_graph has exactly the text of the graph that was shown last, whatever else the build prints; when the build shows none, the file is empty.", "quantifier": "for all flows, names, outputs of builds and both ways compilers show line feeds", "why_tests_cant": "The rules are not tested; which names or other lines of output spoil the text is about all outputs.", "anchors": ["cmake/debug_flow.cmake:78-89", "include/flow/debug_builder.hpp:46-52", "include/flow/viz_builder.hpp:18-119"]}
{"id": "C145", "title": "A catalog made to forget disregards the stable catalogs", "statement": "With FORGET_OLD_IDS the catalog is the one that would be made without the files of STABLE_JSON, as the documentation says.", "quantifier": "for all stable catalogs, messages, reserved ids and keys", "why_tests_cant": "It is about all catalogs and messages; tests of the generator do not use the switch.", "anchors": ["docs/logging.adoc:254", "python/cib/gen_str_catalog.py:742-770", "python/cib/gen_str_catalog.py:307-337"]}
{"id": "C146", "title": "The comparison of matchers is a partial order", "statement": "Comparing matchers with <=> is transitive: when a is less than or equivalent to b and b to c, then a is less than or equivalent to c, strictly if one of the two is strict. never is below and always above every matcher, and only matchers that simplify to them are equivalent to them.", "quantifier": "for all matchers a, b, c of any depth, over any leaves whose implication is transitive; for field matchers, all fields, operators and constants", "why_tests_cant": "It relates three comparisons over all matchers; the tests compare pairs.", "anchors": ["docs/match.adoc:366-383", "include/match/ops.hpp:32-43", "include/match/implies.hpp:9-13", "include/msg/field_matchers.hpp:185-191", "include/msg/field_matchers.hpp:218-259"]}
{"id": "C147", "title": "The catalog does not depend on the hash seed or on the order of the symbols", "statement": "Two runs of the generator over the same symbols, listed in any order, and with any two seeds of Python's string hashes, give every message and module the same id and write the same entries to the JSON file.", "quantifier": "for all seeds (hash functions), orders, messages, stable catalogs and reserved ids", "why_tests_cant": "The seed is drawn anew by every run and the order of the symbols depends on the compiler, the linker and nm; tests see a few of them.", "anchors": ["python/cib/gen_str_catalog.py:212-213", "python/cib/gen_str_catalog.py:270-271", "python/cib/gen_str_catalog.py:300-357", "python/cib/gen_str_catalog.py:452-466"]}
{"id": "C148", "title": "set sets what it is given", "statement": "m.set(a1, ..., ak), where each argument is a field of the message with a value (\"f\"_field = v), a name (\"f\"_field) or an object of a field type, gives fields with a value this value and the others their defaults, in the order given, and leaves all other bits as they were; it compiles if the fields are the message's and those with values may be changed.", "quantifier": "for all messages, storages of 8, 16 and 32 bit elements, and lists of arguments of any length and kind", "why_tests_cant": "set has three overloads chosen by the kinds of all the arguments together; tests only give values.", "anchors": ["include/msg/message.hpp:213-225", "include/msg/message.hpp:236-249", "include/msg/message.hpp:348-351"]}
{"id": "C149", "title": "A subscript is the value of the field", "statement": "m[\"f\"_field] gives the value the field has when it is evaluated, and keeps it; assigning to m[\"f\"_field] sets the field and nothing else; subscripts can be used wherever get and set can.", "quantifier": "for all programs of declarations, sets, gets, comparisons, subscripts taken and used later, assigned to and copied, of any length, over owners and views on storages of 8, 16 and 32 bit elements", "why_tests_cant": "What a subscript gives (a value or a reference) depends on the constness of the message, and shows only when the message changes before it is used.", "anchors": ["include/msg/message.hpp:337-376"]}
{"id": "C150", "title": "A constraint goes with its field", "statement": "Whatever is done with a field before or after it is given a constraint (with_required, with_equal_to, with_in, with_greater_than, ...) - located, shifted_by, with_new_name, a default, and so pack, relaxed_message and rename_field - the condition of a message is that each of its fields has a value that its definition asks for, both of raw data and of a message; the field has the name, type, default and places asked for last.", "quantifier": "for all messages of fields made by any sequence of the aliases of field_t, of any length, and data of 8, 16 and 32 bit elements", "why_tests_cant": "The order of the aliases matters only for what the matcher is about, a field type that no longer exists; tests locate first, and match messages or unmoved fields.", "anchors": ["include/msg/field.hpp:475-555", "include/msg/field_matchers.hpp:134-151", "include/msg/field_matchers.hpp:334-337", "include/msg/message.hpp:620", "include/msg/callback.hpp:26-28", "include/msg/callback.hpp:92-97"]}
{"id": "C151", "title": "Messages log with the environments they were given", "statement": "However a message is defined - message and relaxed_message with an environment, with_env, extension, shifted_by, rename_field, overlay, pack, nested in any way - a query of its environment has the answer of the last environment in the text of the definition that answers it, the environments have no effect on the fields or on what compiles, and the lines its callbacks log are in that environment, at level INFO when it does not set one; a line that says that no callback claimed a message is in the environment of none of them.", "quantifier": "for all definitions of messages, of any nesting and number of messages, all environments, and handlers of any number of callbacks", "why_tests_cant": "Each test sets one key in two messages; the answer depends on every environment of a definition of any depth, on the order in which three functions append them, and on scopes of declarations in two functions.", "anchors": ["include/msg/message.hpp:294-334", "include/msg/message.hpp:405-407", "include/msg/message.hpp:622-630", "include/msg/message.hpp:759-853", "include/msg/callback.hpp:30-62", "include/log/env.hpp:10-32", "include/msg/handler.hpp:25-40"]}
{"id": "C152", "title": "A field is where its definition says", "statement": "A field located by bits, by a byte index or by a double word index, and shifted by any amounts, up or down, in bits, bytes or other units, is at the bits this says; a place that does not exist, or has more than 64 bits, does not compile; messages packed one after the other do not overlap.", "quantifier": "for all places of all forms, all chains of shifts of any length by any integers in any units, and all lists of messages", "why_tests_cant": "The positions are sums and products modulo 2^32 of literals truncated from 64 bits; tests use small indices and never shift down.", "anchors": ["include/msg/field.hpp:273-352", "include/msg/field.hpp:354", "include/msg/field.hpp:545-548", "include/msg/message.hpp:405-407", "include/msg/message.hpp:741-779"]}
{"id": "C153", "title": "A JSON file reads back as what was written", "statement": "What the generator writes to a JSON file is what is read from the file as a stable catalog, as an extra input or by the decoder: the same texts, argument types, ids, named arguments, tags and modules in the same order, and the same names for the values of enumerations; whatever ends the lines and however the file is encoded.", "quantifier": "for all values of any depth, texts of any characters and length, all catalogs, and both kinds of line ends", "why_tests_cant": "Quotes, backslashes, control characters and characters beyond ASCII are escaped and numbers become texts as keys; tests compare the structures in memory and never read a file back.", "anchors": ["python/cib/gen_str_catalog.py:82-98", "python/cib/gen_str_catalog.py:130-135", "python/cib/gen_str_catalog.py:185-203", "python/cib/gen_str_catalog.py:254-265", "python/cib/gen_str_catalog.py:452-499", "python/cib/log_decode.py:77-78"]}
{"id": "C154", "title": "After a build the release header is that of the sources", "statement": "After every build of the target release_header the header in the build directory is what the script makes of the headers and the version of now, so that a compiler sees in it the code of the library.", "quantifier": "for all sources, with any includes, and all sequences of edits, new files, removed files, tags and builds", "why_tests_cant": "The tests never edit a header between two builds, and which headers count depends on their contents.", "anchors": ["cmake/single_header.cmake:1-17", "CMakeLists.txt:301-312", "CMakeLists.txt:335-349", "tools/gen_release_header.py:9-58"]}
{"id": "C155", "title": "Ids stay while the catalog goes from build to build as a JSON file", "statement": "Builds that pass the catalog on as the text of a JSON file assign the ids that builds passing the entries themselves assign: every file written can be read by the next build, a message keeps its id from build to build, no other message ever gets it, and modules likewise.", "quantifier": "for all sequences of builds with any messages, modules, enumerations, reserved ranges and line endings, and any characters in the texts", "why_tests_cant": "A test runs one build, or two with texts chosen in advance; a text with unusual characters could make the next build misread the file and lose every id.", "anchors": ["python/cib/gen_str_catalog.py:114-117", "python/cib/gen_str_catalog.py:147-167", "python/cib/gen_str_catalog.py:185-207", "python/cib/gen_str_catalog.py:254-265", "python/cib/gen_str_catalog.py:452-500", "python/cib/gen_str_catalog.py:742-786"]}
{"id": "C156", "title": "A catalog file that was cut short is never taken for a catalog", "statement": "If the catalog file ends early, wherever it was cut, it does not load, and a build that is given it as stable catalog stops instead of giving out ids anew; text after the end of a catalog makes it unreadable unless it is blanks.", "quantifier": "for all catalogs (any messages, modules and enumerations, any characters), both line endings, all places where the file is cut and all texts after its end", "why_tests_cant": "A test can cut one file in a few places; that no beginning of any catalog reads as a smaller catalog is a statement about all of them.", "anchors": ["python/cib/gen_str_catalog.py:452-483", "python/cib/gen_str_catalog.py:486-500", "python/cib/log_decode.py:77-78"]}
{"id": "C157", "title": "What several JSON files say together is what the last one says under each heading", "statement": "A build that is given several stable catalogs takes its earlier messages from the last file with a heading messages and its earlier modules from the last with a heading modules, and stops if any file cannot be read or holds no object. (The last part is refuted: a list of pairs or an empty list or text is taken like an object; what is taken from each stable file is proved.) Given extra inputs that hold objects or cannot be read, its JSON output can be made exactly if they can be read and their enumerations added to; it then says under each heading other than enums what the last extra input with it says, or what the build has, and names each value of an enumeration by the build's name or else by theirs. What is read from any JSON file reads the same after it was written again.", "quantifier": "for all texts given as files (any characters), any number of stable files and extra inputs in any order, all messages, modules and enumerations, both line endings", "why_tests_cant": "Tests give one or two files; that nothing of any file is lost or mixed otherwise is a statement about all texts and numbers of files.", "anchors": ["python/cib/gen_str_catalog.py:452-483", "python/cib/gen_str_catalog.py:486-500"]}
{"id": "C158", "title": "The benchmark tables show the last times measured and the algorithms' own sizes", "statement": "The three tables made from the log of the lookup benchmarks have one row for each dataset and one column for each algorithm with a time in the log, and show in each cell the last chained time, the last independent time, and the size of that algorithm; a cell without a measurement is empty.", "quantifier": "for all logs (any number of lines, any characters), all datasets and algorithms, any reading of numbers, any order of names", "why_tests_cant": "A test compares the tables of one log; that no line of any log puts a number into another cell is a statement about all logs.", "anchors": ["tools/benchmark/parse_bench_data.py:8-50", "tools/benchmark/parse_bench_data.py:53-89", "benchmark/lookup/pseudo_pext.cpp:13-17"]}
{"id": "C159", "title": "The data of the lookup benchmarks is one cycle through distinct keys", "statement": "The generated data has as many entries as asked for, with distinct keys, and looking up the result of each lookup goes from any key through all of them and back to it, no sooner; the same holds of every lookup the library makes of the data. The generator ends as soon as enough distinct keys were drawn, and the text it writes has the entries' values.", "quantifier": "for all sizes, both types, all sequences of random numbers, all orders of a set, all strategies and key widths", "why_tests_cant": "The numbers are random: a test sees the cycle of one draw, not that every draw gives one, nor that the program ends for every size it accepts.", "anchors": ["tools/benchmark/gen_map_data.py:7-25", "tools/benchmark/gen_map_data.py:52-55", "benchmark/lookup/algorithms/pseudo_pext.hpp:23-70"]}
