{"id": "C01", "title": "SynList: lookup and synonym sets stay coherent", "statement": "After any sequence of add_term/add_set/add_synonyms/add_synonym/set_name/set_entity/merge calls that each returned normally (merge never naming the dominant item itself), every term listed in synonym_set(i) is found by index(term) at i, every known key belongs to exactly one live item, so no two items ever share a term.", "quantifier": "all histories of calls, all strings, both ignore_case settings", "why_tests_cant": "the number of operation histories is unbounded; the bug only shows after particular interleavings of merge and add", "anchors": ["synlist/synlist.py:SynList._new_term", "synlist/synlist.py:SynList._merge", "synlist/synlist.py:SynList.add_set", "synlist/synlist.py:SynList.find_indices"]}
{"id": "C02", "title": "SynList: a rejected call leaves the list unchanged", "statement": "When add_synonym, add_set or merge raises (TermFound, InconsistentIndices, KeyError), the synonym sets, names and lookups are exactly as before the call.", "quantifier": "all states and arguments", "why_tests_cant": "needs every state before the failing call", "anchors": ["synlist/synlist.py:SynList._new_term", "synlist/synlist.py:SynList.add_set", "synlist/synlist.py:SynList.add_synonym"]}
{"id": "C03", "title": "SynList: add_set semantics", "statement": "add_set(terms, merge=True) adds every unknown term to the one item already matched (or to a fresh item when none matched), raises InconsistentIndices exactly when two or more items are matched, never moves a known term, and add_set(terms, merge=False) puts all unknown terms together in one fresh item (returning None when nothing was unknown).", "quantifier": "all states reachable, all term collections, all set-iteration orders", "why_tests_cant": "python sets iterate in hash order, which tests fix by accident", "anchors": ["synlist/synlist.py:SynList.add_set", "synlist/synlist.py:SynList._new_set", "synlist/synlist.py:SynList._merge_set_with_index"]}
{"id": "C04", "title": "SynList: merge makes exactly the named items synonymous", "statement": "merge(d, t1..tn) makes two terms synonyms iff they were synonyms before or both belong to the merged items; the dominant item keeps its index and name; no term becomes unknown; other items are unaffected.", "quantifier": "all states, all argument lists", "why_tests_cant": "unbounded states and argument lists including self-merges", "anchors": ["synlist/synlist.py:SynList.merge", "synlist/synlist.py:SynList._merge"]}
{"id": "C05", "title": "SynList: serialize / from_json round trip", "statement": "from_json(serialize(s)) reproduces the live items of s in order with the same names, synonym sets and are_synonyms relation.", "quantifier": "all reachable states, all set-iteration orders", "why_tests_cant": "the state space and the iteration order of sets are unbounded", "anchors": ["synlist/synlist.py:SynList.serialize", "synlist/synlist.py:SynList.from_json"]}
{"id": "C06", "title": "SynList: split_term separates a term from its item", "statement": "After split_term(t) returns, t belongs to a new item named t whose synonyms are the matching spellings of t, and the remaining synonyms stay together in the old item under its old name.", "quantifier": "all states and non-name terms", "why_tests_cant": "no test covers it; all states needed", "anchors": ["synlist/synlist.py:SynList.split_term", "synlist/synlist.py:SynList._matches"]}
{"id": "C07", "title": "SynList: are_synonyms is an equivalence on known terms and respects sanitization", "statement": "are_synonyms is symmetric and transitive, reflexive exactly on known terms, and insensitive to surrounding whitespace (and to case when ignore_case is set).", "quantifier": "all states and all strings", "why_tests_cant": "infinite strings", "anchors": ["synlist/synlist.py:SynList.are_synonyms", "synlist/synlist.py:SynList._sanitize"]}
{"id": "C08", "title": "CAS numbers: pad_cas and trim_cas are inverse normal forms", "statement": "For every string accepted by the CAS pattern, pad_cas terminates with a 6-2-1 digit string, both functions are idempotent, trim_cas(pad_cas(c)) = trim_cas(c), and two accepted CAS strings have the same padded form iff they have the same trimmed form; pad_cas raises NotACas on everything else.", "quantifier": "all strings", "why_tests_cant": "infinite input domain and a while loop whose termination must be shown", "anchors": ["synlist/flowables.py:pad_cas", "synlist/flowables.py:trim_cas", "synlist/flowables.py:cas_regex"]}
{"id": "C09", "title": "Flowables: at most one CAS number per item", "statement": "After any history of successful add_set/add_synonyms/add_term/add_synonym/merge (multi_cas=False) calls, all CAS-shaped terms of an item have the same trimmed form and cas(item) is the padded form of that number (None if there is none).", "quantifier": "all histories", "why_tests_cant": "unbounded histories; each insertion path has its own check", "anchors": ["synlist/flowables.py:Flowables._new_term", "synlist/flowables.py:Flowables.merge", "synlist/flowables.py:Flowables._merge_set_with_index"]}
{"id": "C10", "title": "Flowables: check_cas reports exactly the conflicting items", "statement": "check_cas(terms) raises ConflictingCas iff the terms contain two different CAS numbers, returns None iff they contain none, and otherwise returns the sorted list of exactly those matched items whose CAS differs.", "quantifier": "all states and term lists", "why_tests_cant": "all inputs", "anchors": ["synlist/flowables.py:Flowables.check_cas", "synlist/flowables.py:find_cas"]}
{"id": "C11", "title": "Compartments: a found compartment lies on a monotone path matching the request", "statement": "When a compartment is found for a list of names, each non-null, non-\"unspecified\" name is a synonym of a compartment on the path from the root to the result, in the same order; and the result does not depend on the iteration order of subcompartment sets.", "quantifier": "all hierarchies, all requests, all iteration orders", "why_tests_cant": "hash-randomised set order and unbounded trees", "anchors": ["lcatools/flowdb/compartments.py:_crawl_compartments", "lcatools/flowdb/compartments.py:CompartmentManager._crawl"]}
{"id": "C12", "title": "Compartments: elementary is inherited", "statement": "Every compartment created below an elementary compartment by add_sub, add_subs or from_json is elementary; set_elementary marks the whole subtree; unset_elementary(unset_children=True) clears the whole subtree.", "quantifier": "all trees and histories", "why_tests_cant": "unbounded trees", "anchors": ["lcatools/flowdb/compartments.py:Compartment.add_sub", "lcatools/flowdb/compartments.py:Compartment.from_json", "lcatools/flowdb/compartments.py:Compartment.set_elementary", "lcatools/flowdb/compartments.py:Compartment.unset_elementary"]}
{"id": "C13", "title": "Compartments: serialize / from_json round trip", "statement": "Compartment.from_json(c.serialize()) rebuilds the same hierarchy (names, synonyms, elementary flags, nesting) for every well-formed hierarchy whose sibling synonym sets are disjoint and that has no sub named unspecified.", "quantifier": "all trees of any depth and width", "why_tests_cant": "unbounded trees", "anchors": ["lcatools/flowdb/compartments.py:Compartment.serialize", "lcatools/flowdb/compartments.py:Compartment.from_json", "lcatools/flowdb/compartments.py:Compartment._add_subs_from_json"]}
{"id": "C14", "title": "Compartments: known names are preserved by merging", "statement": "add_sub/add_subs/merge_subs/collapse/uproot never lose a known name, and add_subs(path) makes the path resolvable from that compartment.", "quantifier": "all trees", "why_tests_cant": "unbounded trees", "anchors": ["lcatools/flowdb/compartments.py:Compartment._merge_sub", "lcatools/flowdb/compartments.py:Compartment.merge_subs", "lcatools/flowdb/compartments.py:Compartment.collapse"]}
{"id": "C15", "title": "AutoRange: scaled values land in 1..1000 and units match", "statement": "For every nonzero range r, AutoRange(r) terminates and adjust(r) has magnitude in [1,1000]; and adjust(v) expressed in adj_unit(u) denotes the same physical amount as v in u, for every prefixed unit u.", "quantifier": "all nonzero reals and all unit strings", "why_tests_cant": "real-valued domain, loop termination", "anchors": ["lcatools/autorange.py:AutoRange._set_shift", "lcatools/autorange.py:AutoRange.adj_unit"]}
{"id": "C16", "title": "LCIA: adding two summaries adds their scores", "statement": "When SummaryLciaResult addition returns, the cumulative result of the sum is the sum of the cumulative results, whatever combination of static and nested summaries is added; otherwise it raises and changes nothing.", "quantifier": "all summaries, weights, scores and scales", "why_tests_cant": "numeric identities over all values; eight case combinations", "anchors": ["lcatools/lcia_results.py:SummaryLciaResult.__add__"]}
{"id": "C17", "title": "LCIA: no score is lost or double counted when results are accumulated", "statement": "After any sequence of add_component/add_score/add_summary calls the total equals the sum of all submitted contributions (scaled) except those recorded in failed.", "quantifier": "all histories of additions", "why_tests_cant": "unbounded histories", "anchors": ["lcatools/lcia_results.py:LciaResult.add_summary", "lcatools/lcia_results.py:LciaResult.add_score", "lcatools/lcia_results.py:LciaResult.total"]}
{"id": "C18", "title": "LCIA: aggregate preserves the total", "statement": "r.aggregate(key).total() == r.total() for every key function and for the key \"*\", and the components of the aggregate are exactly the distinct key values.", "quantifier": "all results, key functions and scales", "why_tests_cant": "all groupings", "anchors": ["lcatools/lcia_results.py:LciaResult.aggregate"]}
{"id": "C19", "title": "LCIA: flatten preserves the total", "statement": "Whenever r.flatten() returns a result, its total is r.total() for arbitrarily deep nested summaries, and every component is a static summary or a set of detailed scores.", "quantifier": "all nested results of any depth", "why_tests_cant": "unbounded nesting", "anchors": ["lcatools/lcia_results.py:LciaResult.flatten", "lcatools/lcia_results.py:SummaryLciaResult.flatten"]}
{"id": "C20", "title": "LCIA: contribution queries are exhaustive", "statement": "contrib_new(*queries) returns as many results as queries and results plus balance always sum to the (auto-ranged) total; when \"*\" is queried the returned balance is zero.", "quantifier": "all results, all query lists including repeats and unknown keys", "why_tests_cant": "all query lists", "anchors": ["lcatools/lcia_results.py:LciaResult.contrib_new"]}
{"id": "C21", "title": "LCIA: weighting produces the weighted sum", "statement": "LciaResults.apply_weighting(weights) returns a result whose total is the weighted sum of the totals of the named results.", "quantifier": "all results and weights", "why_tests_cant": "all inputs", "anchors": ["lcatools/lcia_results.py:LciaResults.apply_weighting"]}
{"id": "C22", "title": "LCIA: adding two results does not change the operands", "statement": "a + b has total a.total()+b.total() and leaves a.total() and b.total() unchanged.", "quantifier": "all pairs of results with disjoint components", "why_tests_cant": "aliasing histories", "anchors": ["lcatools/lcia_results.py:LciaResult.__add__"]}
{"id": "C23", "title": "Process: reference flags and the reference set agree", "statement": "After any history of add_exchange/add_reference/remove_reference/allocate_by_quantity calls, an exchange reports is_reference iff the process lists it as a reference, every reference is one of the process exchanges, and no terminated exchange is a reference.", "quantifier": "all histories", "why_tests_cant": "unbounded histories", "anchors": ["lcatools/entities/processes.py:LcProcess._set_reference", "lcatools/entities/processes.py:LcProcess.remove_reference", "lcatools/exchanges.py:Exchange.set_ref"]}
{"id": "C24", "title": "Process: partition allocation distributes the whole exchange", "statement": "While a process is allocated by quantity, for each non-reference exchange x the allocated values x[ref] weighted by the reference outputs add up to the unallocated value x.value.", "quantifier": "all processes and histories", "why_tests_cant": "all numbers of co-products, all later edits", "anchors": ["lcatools/entities/processes.py:LcProcess.allocate_by_quantity", "lcatools/entities/processes.py:LcProcess._alloc_dict", "lcatools/exchanges.py:ExchangeValue.__getitem__"]}
{"id": "C25", "title": "Process: an exchange value is written once", "statement": "add_exchange never silently overwrites: with add_dups=False a second different value for the same flow, direction and termination (or same reference) raises DuplicateExchangeError and leaves the value unchanged; with add_dups=True the values are summed.", "quantifier": "all histories", "why_tests_cant": "all histories", "anchors": ["lcatools/entities/processes.py:LcProcess.add_exchange", "lcatools/exchanges.py:ExchangeValue.value", "lcatools/exchanges.py:ExchangeValue.__setitem__"]}
{"id": "C26", "title": "Process: exchange relation for references", "statement": "For reference exchanges r, s: r[r] == 1 and r[s] == 0 for r != s; for a non-reference exchange under causal allocation x[r]*r.value equals the allocated share, zero if none was given.", "quantifier": "all processes", "why_tests_cant": "all values", "anchors": ["lcatools/exchanges.py:ExchangeValue.__getitem__"]}
{"id": "C27", "title": "Process: allocation factors are a partition of unity", "statement": "allocation_factors(q) returns one factor per valued reference and they sum to 1 whenever the total magnitude is nonzero.", "quantifier": "all processes and quantities", "why_tests_cant": "all sizes", "anchors": ["lcatools/entities/processes.py:LcProcess.allocation_factors", "lcatools/entities/processes.py:LcProcess._alloc_dict"]}
{"id": "C28", "title": "Process: find_exchange returns the unique match or says why not", "statement": "find_exchange(spec, reference, direction) returns an exchange only if it satisfies the filters and is either the only candidate or the only un-terminated one; raises NoExchangeFound iff no exchange satisfies the filters; MultipleReferencesFound / AmbiguousReferenceError in the remaining cases.", "quantifier": "all processes and specifications", "why_tests_cant": "all exchange sets", "anchors": ["lcatools/entities/processes.py:LcProcess.find_exchange", "lcatools/entities/processes.py:LcProcess._gen_exchanges"]}
{"id": "C29", "title": "Process: JSON round trip preserves the inventory", "statement": "Serializing a process with exchanges and values and loading it back gives the same references and the same exchange values and allocations.", "quantifier": "all processes", "why_tests_cant": "all inventories", "anchors": ["lcatools/archives/lc_archive.py:LcArchive._process_from_json", "lcatools/entities/processes.py:LcProcess.serialize", "lcatools/exchanges.py:ExchangeValue.serialize"]}
{"id": "C30", "title": "Background: components are exactly the cycles", "statement": "After adding all reference products of a linked database, two product flows have the same component id iff each is reachable from the other through the terminated exchanges.", "quantifier": "all finite databases (graphs) of any size, any order of processes and exchanges", "why_tests_cant": "all graphs; recursion and shared stack state", "anchors": ["antelope_background/engine/background_engine.py:BackgroundEngine._traverse_term_exchanges", "antelope_background/engine/background_engine.py:BackgroundEngine._set_lowlink", "antelope_background/engine/tarjan_stack.py:TarjanStack.label_scc"]}
{"id": "C31", "title": "Background: the traversal covers everything reachable once", "statement": "Every product flow reachable from an added reference product is indexed exactly once, indices are consecutive, and every terminated non-zero exchange of an indexed flow becomes exactly one interior entry.", "quantifier": "all finite databases", "why_tests_cant": "all graphs", "anchors": ["antelope_background/engine/background_engine.py:BackgroundEngine._create_product_flow", "antelope_background/engine/background_engine.py:BackgroundEngine._add_product_flow"]}
{"id": "C32", "title": "Background: the background is closed under dependency", "statement": "If a product flow is in the background then so are all the product flows it depends on, so every interior entry of a background column has a background row.", "quantifier": "all finite databases", "why_tests_cant": "all graphs", "anchors": ["antelope_background/engine/tarjan_stack.py:TarjanStack._set_downstream", "antelope_background/engine/tarjan_stack.py:TarjanStack._generate_bg_index", "antelope_background/engine/background_engine.py:BackgroundEngine._construct_a_matrix"]}
{"id": "C33", "title": "Background: the foreground order is topological and complete", "statement": "The foreground ordering terminates, contains each non-background product flow exactly once, and lists every component after all the foreground components that depend on it.", "quantifier": "all finite databases", "why_tests_cant": "all graphs; loop termination", "anchors": ["antelope_background/engine/tarjan_stack.py:TarjanStack._generate_foreground_index"]}
{"id": "C34", "title": "Background: LCI iteration computes the truncated Neumann series", "statement": "compute_bg_lci returns the sum of the first k terms A^i d, hence total - A total = d - A^k d, so an exact stop returns a solution of x = d + A x.", "quantifier": "all sparse matrices, demand vectors, thresholds and iteration limits", "why_tests_cant": "all matrices", "anchors": ["antelope_background/engine/background_engine.py:BackgroundEngine.compute_bg_lci"]}
{"id": "C35", "title": "Background: result does not depend on the order in which products are added", "statement": "Adding reference products one at a time yields the same technology matrix (up to renumbering) as adding them all at once.", "quantifier": "all finite databases and all orders of add_ref_product", "why_tests_cant": "all histories", "anchors": ["antelope_background/engine/background_engine.py:BackgroundEngine.add_ref_product", "antelope_background/engine/background_engine.py:BackgroundEngine._update_component_graph"]}
{"id": "C36", "title": "Background: a failed product leaves no trace", "statement": "If add_ref_product raises TerminationError, the engine is as if the call had not been made, and later additions produce correct components.", "quantifier": "all databases with ambiguous terminations, all later histories", "why_tests_cant": "crash points inside the recursive traversal", "anchors": ["antelope_background/engine/background_engine.py:BackgroundEngine._rm_product_flow_children"]}
{"id": "C37", "title": "Background: termination strategy", "statement": "terminate(exch, strategy) uses an explicit termination when present, treats flows already known as emissions as cut-off, and otherwise resolves by strategy: unique match; first/last of several; cutoff; abort raises.", "quantifier": "all exchanges and strategies", "why_tests_cant": "all inputs", "anchors": ["antelope_background/engine/background_engine.py:BackgroundEngine.terminate"]}
{"id": "C38", "title": "Fragments: traversal is linear in the upstream weight", "statement": "Scaling the node weight with which a fragment is traversed scales all magnitudes and node weights of the resulting fragment flows by the same factor and changes nothing else.", "quantifier": "all fragment trees, scenarios and nonzero factors", "why_tests_cant": "unbounded trees", "anchors": ["lcatools/entities/fragments.py:LcFragment._traverse_node", "lcatools/entities/fragments.py:LcFragment._traverse_fg_node", "lcatools/entities/fragments.py:LcFragment._traverse_subfragment"]}
{"id": "C39", "title": "Fragments: balance flows conserve the quantity", "statement": "At every traversed foreground node with a balance flow, the inflows and outflows of the conserved quantity over the node reference flow, its children and the balance flow sum to zero.", "quantifier": "all fragment trees, scenarios and exchange values", "why_tests_cant": "all values and trees", "anchors": ["lcatools/entities/fragments.py:LcFragment._traverse_fg_node", "lcatools/entities/fragments.py:LcFragment.set_conserved_quantity"]}
{"id": "C40", "title": "Fragments: unit inventory lists each flow once with its net amount", "statement": "group_ios returns every cut-off flow exactly once with a nonnegative magnitude and a direction whose signed sum equals the net of the traversal cut-offs (plus the reference flow), and the internal list is exactly the non-null terminations in order.", "quantifier": "all traversal results", "why_tests_cant": "all lists", "anchors": ["lcatools/fragment_flows.py:group_ios", "lcatools/fragment_flows.py:FragmentFlow.cutoff"]}
{"id": "C41", "title": "Fragments: reversing direction does not change results", "statement": "reverse_direction negates all exchange values and complements the direction; applying it twice restores the fragment, and the signed net flow of the traversal is unchanged.", "quantifier": "all fragments and scenarios", "why_tests_cant": "all values", "anchors": ["lcatools/entities/fragments.py:LcFragment.reverse_direction"]}
{"id": "C42", "title": "Fragments: scenario precedence", "statement": "exchange_value(scenario) returns the scenario value if the fragment defines it, else observed or cached as requested; a set of scenarios with two matches raises ScenarioConflict, and termination lookup follows the same rule.", "quantifier": "all exchange value tables and scenario specifications", "why_tests_cant": "all tables", "anchors": ["lcatools/entities/fragments.py:LcFragment._match_scenario_ev", "lcatools/entities/fragments.py:LcFragment._match_scenario_term", "lcatools/entities/fragments.py:LcFragment.exchange_value", "lcatools/entities/fragments.py:LcFragment.set_exchange_value"]}
{"id": "C43", "title": "Fragments: a stored exchange value reads back", "statement": "set_exchange_value(scenario, v) followed by exchange_value(scenario) returns v.", "quantifier": "all values and scenarios", "why_tests_cant": "all values", "anchors": ["lcatools/entities/fragments.py:LcFragment.set_exchange_value", "lcatools/entities/fragments.py:LcFragment.cached_ev"]}
{"id": "C44", "title": "Fragments: terminate never admits a cycle", "statement": "No sequence of terminate() calls that all return normally produces a model on which traverse() recurses without end.", "quantifier": "all fragment models and termination histories", "why_tests_cant": "non-termination and unbounded histories", "anchors": ["lcatools/entities/fragments.py:LcFragment.terminate", "lcatools/entities/fragments.py:_do_subfragment_traversal"]}
{"id": "C45", "title": "Fragments: parent / child links agree", "statement": "After any history of set_parent/unset_parent, a fragment is listed among the children of exactly its current parent.", "quantifier": "all histories", "why_tests_cant": "all histories", "anchors": ["lcatools/entities/fragments.py:LcFragment.set_parent", "lcatools/entities/fragments.py:LcFragment.unset_parent", "lcatools/entities/fragments.py:LcFragment.add_child"]}
{"id": "C46", "title": "Archive: stored entities, type index and counters agree", "statement": "After any history of adds, each entity is stored under one key, appears in the type index of exactly its own type, count_by_type equals the number of stored entities of that type, and a failed add changes nothing.", "quantifier": "all histories", "why_tests_cant": "all histories", "anchors": ["lcatools/archives/entity_store.py:EntityStore._add", "lcatools/archives/entity_store.py:EntityStore.entities_by_type", "lcatools/archives/entity_store.py:EntityStore.check_counter"]}
{"id": "C47", "title": "Archive: each source belongs to one semantic reference", "statement": "After any history of name registrations, a (non-null) source is registered under at most one reference and no registration is lost.", "quantifier": "all histories including rewrite and own-source override", "why_tests_cant": "all histories", "anchors": ["lcatools/archives/entity_store.py:EntityStore._add_name", "lcatools/archives/entity_store.py:EntityStore.names"]}
{"id": "C48", "title": "Archive: retrieval order", "statement": "Looking up a key returns the upstream entity if upstream has it, else the local one, else None; retrieve_or_fetch only fetches when both are missing; reading assigns the archive reference as origin to origin-less entities and never changes an existing origin.", "quantifier": "all stores and keys", "why_tests_cant": "all states", "anchors": ["lcatools/archives/entity_store.py:EntityStore.__getitem__", "lcatools/archives/entity_store.py:EntityStore._get_entity", "lcatools/archives/entity_store.py:EntityStore.retrieve_or_fetch_entity"]}
{"id": "C49", "title": "LowerDict: a case-insensitive map", "statement": "For every history of item assignment, item lookup, membership and pop, LowerDict behaves like a map keyed by lower-cased strings that remembers the first spelling of each key.", "quantifier": "all histories and strings", "why_tests_cant": "all histories", "anchors": ["lcatools/entities/lower_dict.py:LowerDict"]}
{"id": "C50", "title": "Characterization: location fallback and write-once", "statement": "factor[loc] returns the value for loc if present, otherwise the GLO value, otherwise 0 (None when there are no values); a location can only be replaced with overwrite=True, and scale multiplies every location by the factor.", "quantifier": "all histories of add_value, all locations", "why_tests_cant": "all histories", "anchors": ["lcatools/characterizations.py:Characterization"]}
{"id": "C51", "title": "Flow: unit conversions survive a change of reference quantity", "statement": "Changing the reference quantity of a flow leaves convert(v, to, fr, locale) unchanged for all pairs of characterized quantities and makes the new reference factor 1.", "quantifier": "all flows and quantities", "why_tests_cant": "all values", "anchors": ["lcatools/entities/flows.py:LcFlow._set_reference", "lcatools/entities/flows.py:LcFlow.convert", "lcatools/entities/flows.py:LcFlow.cf"]}
{"id": "C52", "title": "Flow: conversion is consistent", "statement": "convert(convert(v,to=b,fr=a),to=c,fr=b) = convert(v,to=c,fr=a) and convert(v, a, a) = v, whenever the factors are nonzero.", "quantifier": "all flows, quantities and values", "why_tests_cant": "all values", "anchors": ["lcatools/entities/flows.py:LcFlow.convert"]}
{"id": "C53", "title": "Resources: one stored entry per data source", "statement": "After any history of write_to_file calls for a reference, the resource file holds at most one entry per data source, namely the last one written, and entries of other sources are kept in order.", "quantifier": "all histories", "why_tests_cant": "all histories", "anchors": ["antelope_catalog/lc_resource.py:LcResource.write_to_file", "antelope_catalog/lc_resource.py:LcResource.matches"]}
{"id": "C54", "title": "Resources: interrupted save does not lose other resources", "statement": "If the process dies during write_to_file, the resources that were already stored for that reference are still found on the next start.", "quantifier": "all crash points", "why_tests_cant": "crash points cannot be enumerated by unit tests", "anchors": ["antelope_catalog/lc_resource.py:LcResource.write_to_file", "antelope_catalog/catalog/lc_resolver.py:LcCatalogResolver._update_semantic_ref"]}
{"id": "C55", "title": "Resolver: request matching is by dotted prefix, best priority first", "statement": "resolve(req) yields exactly the resources of references whose dotted components start with those of req and that satisfy the interfaces; it raises UnknownOrigin iff no known reference matches; get_resource returns a match of minimal priority or raises.", "quantifier": "all catalogs and requests", "why_tests_cant": "all catalogs", "anchors": ["antelope_catalog/catalog/lc_resolver.py:LcCatalogResolver.resolve", "antelope_catalog/catalog/lc_resolver.py:LcCatalogResolver.get_resource", "antelope_catalog/lc_resource.py:LcResource.satisfies"]}
{"id": "C56", "title": "Resolver: add and delete keep memory and disk in step", "statement": "After any history of add_resource and delete_resource the stored files contain exactly the stored resources still held in memory, adding twice is the same as adding once, and a deleted resource is gone from both.", "quantifier": "all histories", "why_tests_cant": "all histories", "anchors": ["antelope_catalog/catalog/lc_resolver.py:LcCatalogResolver.add_resource", "antelope_catalog/catalog/lc_resolver.py:LcCatalogResolver.delete_resource", "antelope_catalog/catalog/lc_resolver.py:LcCatalogResolver._write_or_delete_resource_file"]}
{"id": "C57", "title": "Directions: complement is an involution without fixed points", "statement": "comp_dir(comp_dir(d)) is the canonical direction of d and differs from comp_dir(d), for every accepted spelling; anything else raises InvalidDirection, None stays None.", "quantifier": "all inputs", "why_tests_cant": "all strings", "anchors": ["lcatools/interfaces/iindex.py:comp_dir", "lcatools/interfaces/iindex.py:check_direction"]}
{"id": "C58", "title": "Entities: equal entities have equal hashes", "statement": "Two entities that compare equal hash equally, so they are interchangeable as dictionary keys.", "quantifier": "all pairs of entities", "why_tests_cant": "all pairs", "anchors": ["lcatools/entities/entities.py:LcEntity.__eq__", "lcatools/entities/entities.py:LcEntity.__hash__"]}
{"id": "C59", "title": "Quantity database: LCIA of an inventory does not depend on earlier queries", "statement": "do_lcia(q, inventory, locale) gives the same result whatever do_lcia calls were made before.", "quantifier": "all query histories", "why_tests_cant": "all histories", "anchors": ["lcatools/qdb/qdb.py:Qdb.do_lcia", "lcatools/qdb/qdb.py:Qdb.convert"]}
{"id": "C60", "title": "Flowables: lookup and synonym sets stay coherent", "statement": "After any history of additions (and merges) that returned, every synonym of an item, in particular every spelling of its CAS number, is found at that item and at no other; no two items have the same CAS number.", "quantifier": "all histories of calls", "why_tests_cant": "all histories and all strings", "anchors": ["synlist/flowables.py:Flowables._new_term", "synlist/flowables.py:Flowables._get_index", "synlist/flowables.py:Flowables._merge"]}
{"id": "C61", "title": "Flowables: a rejected addition leaves no trace", "statement": "When add_term, add_set or add_synonym raises ConflictingCas or TermFound, no known term changes its item and no item is added or changed.", "quantifier": "all histories of calls", "why_tests_cant": "all histories and all strings", "anchors": ["synlist/flowables.py:Flowables._new_term", "synlist/flowables.py:Flowables._merge_set_with_index", "synlist/synlist.py:SynList._new_set"]}
{"id": "C62", "title": "LCIA result sets: lookup and scaling reach every stored result", "statement": "For any history of item assignments and scale() calls on an LciaResults object, looking up a stored key returns the result last stored under it, at the scale last set, and scale(f) rescales every stored result.", "quantifier": "all histories of assignments and scale calls, all keys", "why_tests_cant": "all histories and key sets", "anchors": ["lcatools/lcia_results.py:LciaResults.__getitem__", "lcatools/lcia_results.py:LciaResults.__setitem__", "lcatools/lcia_results.py:LciaResults.scale"]}
{"id": "C63", "title": "LCIA of a traversal: every scored fragment flow is counted once with its sign", "statement": "traversal_to_lcia(ffs) returns for each quantity a result whose total is the sum over the non-null fragment flows of node weight (negated when the termination runs in the same direction as the fragment) times the unit score, with nothing lost.", "quantifier": "all lists of fragment flows and score caches", "why_tests_cant": "all traversals", "anchors": ["lcatools/lcia_results.py:traversal_to_lcia", "lcatools/lcia_results.py:SummaryLciaResult.__add__", "lcatools/fragment_flows.py:FragmentFlow.__eq__"]}
{"id": "C64", "title": "LCIA: a null result contributes nothing", "statement": "A result (or component, nested to any depth) that reports is_null has total 0.", "quantifier": "all results, arbitrarily nested", "why_tests_cant": "all nestings", "anchors": ["lcatools/lcia_results.py:LciaResult.is_null", "lcatools/lcia_results.py:SummaryLciaResult.is_null", "lcatools/lcia_results.py:AggregateLciaScore.is_null"]}
{"id": "C65", "title": "Process: the inventory of a reference is its allocated exchanges", "statement": "inventory(ref) yields each non-reference exchange exactly once, with the value x[ref], and no reference exchange; for a non-reference query it yields every other exchange. Under partition allocation the inventories of all the references, weighted by the reference values, add up to the unallocated exchange values.", "quantifier": "all processes and histories", "why_tests_cant": "all inventories", "anchors": ["lcatools/entities/processes.py:LcProcess.inventory", "lcatools/exchanges.py:ExchangeValue.from_allocated", "lcatools/exchanges.py:ExchangeValue.__getitem__"]}
{"id": "C66", "title": "Background: columns are normalised by net output", "statement": "When a process exchanges its own reference product, its dependencies and emissions are divided by its net output (reference amount, signed by direction, minus its own use), whatever the number, order and direction of the self-exchanges.", "quantifier": "all databases and histories", "why_tests_cant": "all inventories", "anchors": ["antelope_background/engine/product_flow.py:ProductFlow.adjust_ev", "antelope_background/engine/background_engine.py:MatrixProto.adjust_val", "antelope_background/engine/background_engine.py:BackgroundEngine.add_interior"]}
{"id": "C67", "title": "Background: the LCI solves the material balance of the database", "statement": "If x solves x = d + A x for the published matrix, then with activity levels Y = x / net output every background product satisfies: production = demand + use by all background processes, with the exchange values stored in the database, and B x is the sum over processes of emission amount times activity level.", "quantifier": "all databases, demands and orders", "why_tests_cant": "all databases", "anchors": ["antelope_background/engine/background_engine.py:BackgroundEngine.add_all_ref_products", "antelope_background/engine/background_engine.py:BackgroundEngine._construct_a_matrix", "antelope_background/engine/background_engine.py:BackgroundEngine._construct_b_matrix", "antelope_background/engine/background_engine.py:BackgroundEngine.compute_bg_lci"]}
{"id": "C68", "title": "Compartments: lookups do not depend on earlier lookups", "statement": "find_matching answers a request as a newly created manager would, whatever was looked up before (hierarchy unchanged).", "quantifier": "all hierarchies and all histories of lookups", "why_tests_cant": "histories of queries cannot be enumerated", "anchors": ["lcatools/flowdb/compartments.py:CompartmentManager.find_matching", "lcatools/flowdb/compartments.py:compartment_string"]}
{"id": "C69", "title": "Archive: the registry of sources survives saving and loading", "statement": "write_to_file under a new name registers the file under the archive reference and changes nothing else; loading the file gives an archive with the same reference and the same registration of every source.", "quantifier": "all archives reached by any history, all orders of the entries in the file", "why_tests_cant": "all histories", "anchors": ["lcatools/archives/entity_store.py:EntityStore.write_to_file", "lcatools/archives/entity_store.py:EntityStore.serialize", "lcatools/archives/basic_archive.py:BasicArchive.from_file", "lcatools/archives/basic_archive.py:BasicArchive.load_from_dict"]}
{"id": "C70", "title": "Entities: merging never overwrites a property", "statement": "e.merge(other) is refused without change when type or external reference differ; otherwise every property of e keeps its value and e gains exactly the properties it lacked.", "quantifier": "all pairs of entities", "why_tests_cant": "all property dictionaries and spellings of keys", "anchors": ["lcatools/entities/entities.py:LcEntity.merge", "lcatools/entities/lower_dict.py:LowerDict.keys"]}
{"id": "C71", "title": "Flow: the reference quantity has the factor 1", "statement": "A flow created with a reference quantity has, after any history of calls, a reference quantity whose factor is 1, so that convert(v) with no quantities returns v.", "quantifier": "all histories of add_characterization, reference changes, deletions and edits of factors", "why_tests_cant": "all histories", "anchors": ["lcatools/entities/flows.py:LcFlow._set_reference", "lcatools/entities/flows.py:LcFlow.add_characterization", "lcatools/entities/flows.py:LcFlow.del_characterization", "lcatools/characterizations.py:Characterization.scale"]}
{"id": "C72", "title": "Entities and references: equality is an equivalence", "statement": "Comparing entities and references with == is reflexive, symmetric and transitive and never raises.", "quantifier": "all entities and references", "why_tests_cant": "all triples of objects", "anchors": ["lcatools/entities/entities.py:LcEntity.__eq__", "lcatools/entity_refs/base.py:BaseRef.__eq__"]}
{"id": "C73", "title": "Quantity: unit conversions are consistent", "statement": "convert(a, to=b) is the ratio of the table entries, independent of the scale of the table; conversions compose and invert; a unit left out, or the reference unit missing from the table, counts as documented; mag and imag express amounts in an accepted local unit.", "quantifier": "all quantities, tables and units", "why_tests_cant": "all tables", "anchors": ["lcatools/entities/quantities.py:LcQuantity.convert", "lcatools/entities/flows.py:LcFlow.set_local_unit", "lcatools/entities/flows.py:LcFlow.mag", "lcatools/entities/flows.py:LcFlow.imag"]}
{"id": "C74", "title": "Quantity database: a factor comes from the nearest matching compartment", "statement": "convert(flow, query) returns 1 for the reference quantity itself, 0 for quelled biogenic CO2, and otherwise the value of a factor stored for one of the flowables of the flow in its compartment, else a subcompartment, else the parent, times the conversion to the reference quantity of the flow; None only when no such factor is stored. The answer is determined by the database.", "quantifier": "all databases, flows, quantities and locales", "why_tests_cant": "all databases and set iteration orders", "anchors": ["lcatools/qdb/qdb.py:Qdb.convert", "lcatools/qdb/qdb.py:Qdb._convert_values", "lcatools/qdb/qdb.py:CLookup.find"]}
{"id": "C75", "title": "SynList: add_term returns the index where the term is then found", "statement": "add_term(t) returns an index at which t is found afterwards; a term already known changes nothing, an unknown one becomes the name and only synonym of a new item at the end of the list; all other items and terms are untouched.", "quantifier": "all reachable lists and all strings", "why_tests_cant": "all histories and terms", "anchors": ["synlist/synlist.py:SynList.add_term"]}
{"id": "C76", "title": "Flowables: add_term returns where the term is found", "statement": "add_term(t) on a flowables list returns the index of an item that lists t or, for a CAS number, another spelling of the same number, and t (for a CAS number its trimmed spelling) is found there afterwards.", "quantifier": "all histories of additions and all strings", "why_tests_cant": "all histories and terms", "anchors": ["synlist/flowables.py:Flowables._new_term", "synlist/synlist.py:SynList.add_term"]}
{"id": "C77", "title": "Flowables: an item is named by a CAS number only if it has no other name", "statement": "After any history of additions the name of an item is a CAS number only when every synonym of the item is a CAS number.", "quantifier": "all histories of additions, including ones that raise", "why_tests_cant": "all histories", "anchors": ["synlist/flowables.py:Flowables._new_term", "synlist/flowables.py:FlowableSet.set_name"]}
{"id": "C78", "title": "Fragment: amounts multiply along the tree", "statement": "traverse() lists the fragment first with its exchange value as magnitude; every other entry is a child of a listed node that is neither cut off, background nor zero, its magnitude is the weight of that node times the exchange value of the child in the scenario, and its own weight is its magnitude converted to the flow it terminates to; no child of such a node is left out or listed twice. A node that ends in a background fragment takes over its value and termination. A node that ends in another subfragment runs it so that the flow it is entered by matches the weight of the node; the contents of the subfragment are listed (or held by the entry) in that multiple, and each of its other inputs and outputs is the amount of the child with that flow or is listed as a cut-off.", "quantifier": "all fragment trees, with subfragments, scenarios and characterizations", "why_tests_cant": "all trees", "anchors": ["lcatools/entities/fragments.py:LcFragment._traverse_node", "lcatools/entities/fragments.py:LcFragment._traverse_fg_node", "lcatools/terminations.py:FlowTermination.flow_conversion"]}
{"id": "C79", "title": "Fragment: at most one balance flow", "statement": "A fragment has at most one balance flow; it conserves a quantity exactly when it has one, namely the reference quantity of that flow; balance_flow returns it; declaring a second one is refused with BalanceAlreadySet and changes nothing.", "quantifier": "all histories of creating fragments, declaring and undeclaring balance flows and changing values", "why_tests_cant": "all histories", "anchors": ["lcatools/entities/fragments.py:LcFragment.set_balance_flow", "lcatools/entities/fragments.py:LcFragment.unset_balance_flow", "lcatools/entities/fragments.py:LcFragment.set_conserved_quantity", "lcatools/entities/fragments.py:LcFragment.balance_flow"]}
{"id": "C80", "title": "Flat background: dependencies and emissions report the database", "statement": "For every product listed by the flat background, dependencies yields once each the other products of which its process makes a nonzero net use, and emissions the emissions with a nonzero net amount, with the amounts of the database per unit of net output; the listed products are the requested ones and all they need, each in the foreground or in the background.", "quantifier": "all databases, requested products and listed products", "why_tests_cant": "all databases", "anchors": ["antelope_background/background/flat_background.py:FlatBackground.from_background_engine", "antelope_background/background/flat_background.py:FlatBackground.dependencies", "antelope_background/background/flat_background.py:FlatBackground.emissions", "antelope_background/engine/background_engine.py:BackgroundEngine.make_foreground"]}
{"id": "C81", "title": "Flat background: consumers are the inverse of dependencies", "statement": "consumers of a listed product lists, once each, exactly the other listed products whose process makes a nonzero net use of it; u is among the consumers of w exactly if w is among the dependencies of u.", "quantifier": "all databases and listed products", "why_tests_cant": "all databases", "anchors": ["antelope_background/background/flat_background.py:FlatBackground.consumers", "antelope_background/background/flat_background.py:FlatBackground.index_of", "antelope_background/background/flat_background.py:FlatBackground.dependencies"]}
{"id": "C82", "title": "Flat background: the inventory is that of the rounds of suppliers computed", "statement": "lci of a listed product reports, once each, exactly the emissions with a nonzero total over the outputs of the rounds of suppliers computed (first in the foreground, then in the background, until a round is empty or smaller than the threshold, or the limit is reached); the outputs satisfy the balance of every product up to the first round left out, and when no process takes net returns they never exceed those of an exact solution.", "quantifier": "all databases, products, thresholds and limits", "why_tests_cant": "all databases", "anchors": ["antelope_background/background/flat_background.py:FlatBackground.lci", "antelope_background/background/flat_background.py:FlatBackground._compute_lci", "antelope_background/background/flat_background.py:_iterate_a_matrix"]}
{"id": "C83", "title": "Flat background: files give back the same object", "statement": "write_to_file followed by from_file gives a flat background which answers every query as before, and a crash while writing leaves a file that raises or reads as the old or the new object.", "quantifier": "all databases, existing files and crash points", "why_tests_cant": "all crash points", "anchors": ["antelope_background/background/flat_background.py:FlatBackground.write_to_file", "antelope_background/background/flat_background.py:FlatBackground.from_matfile", "antelope_background/background/flat_background.py:FlatBackground._write_index"]}
{"id": "C84", "title": "Flat background: the foreground traversal ends and yields each entry once", "statement": "foreground(process, ref_flow) ends; it yields the reference exchange, then for each foreground product reached from it, once, one exchange for each foreground product its process uses, with the net amount per unit of net output.", "quantifier": "all databases, including those with cycles in the foreground", "why_tests_cant": "all databases", "anchors": ["antelope_background/background/flat_background.py:FlatBackground.foreground"]}
{"id": "C85", "title": "Flat background: is_in_scc and is_in_background", "statement": "is_in_scc is true exactly if some other product is needed by the product and needs it; is_in_background exactly if the product is listed as background; both answer for every listed product.", "quantifier": "all databases and listed products", "why_tests_cant": "all databases", "anchors": ["antelope_background/background/flat_background.py:FlatBackground.is_in_scc", "antelope_background/background/flat_background.py:FlatBackground.is_in_background", "antelope_background/background/flat_background.py:TermRef.scc_id"]}
{"id": "C86", "title": "Interposing a node takes over the exchange and changes nothing else", "statement": "interpose(fragment) puts a new foreground node between a fragment and its parent: the new node has the fragment's flow, direction and exchange values in every scenario, the fragment becomes its only child with exchange value 1, the parent has the new node as a child instead, and traversals compute the same amounts.", "quantifier": "all fragment trees, scenarios and fragments with a parent", "why_tests_cant": "all trees", "anchors": ["lcatools/entities/fragment_editor.py:FragmentEditor.interpose", "lcatools/entities/fragment_editor.py:FragmentEditor._fork_fragment", "lcatools/entities/fragment_editor.py:FragmentEditor.transfer_evs"]}
{"id": "C87", "title": "Splitting off a subfragment keeps the results", "statement": "split_subfragment(fragment) makes the branch a reference fragment of its own and links it from its former place; every traversal of the model computes the same activities, processes and amounts as before (apart from the link itself) and the same net amount of every flow cut off; no other fragment changes.", "quantifier": "all fragment trees, branches, scenarios and traversals", "why_tests_cant": "all trees and scenarios", "anchors": ["lcatools/entities/fragment_editor.py:FragmentEditor.split_subfragment", "lcatools/entities/fragment_editor.py:FragmentEditor._fork_fragment", "lcatools/entities/fragments.py:LcFragment._traverse_subfragment"]}
{"id": "C88", "title": "Observing a fragment with accept_all makes observed and cached traversals agree", "statement": "fragment.observe(accept_all=True) accepts every exchange value of the tree as observed: afterwards the observed traversal equals the cached traversal, flow by flow, which (with no scenario) is the one from before the call; fragments outside the tree are unchanged.", "quantifier": "all fragment trees and scenarios", "why_tests_cant": "all trees", "anchors": ["lcatools/entities/fragments.py:LcFragment.observe", "lcatools/entities/fragments.py:LcFragment._auto_observe", "lcatools/entities/fragments.py:LcFragment.observable"]}
{"id": "C89", "title": "A cloned fragment computes what the original computes", "statement": "clone_fragment(fragment) creates new fragments only, one for every fragment of the tree, with the same flows, directions, balance, background and terminations and with the copies of the children as children; nothing existing changes; and in every scenario, observed or cached, the traversal of the copy lists the same amounts, weights, directions and terminations as that of the original.", "quantifier": "all fragment trees, scenarios and observation modes", "why_tests_cant": "all trees", "anchors": ["lcatools/entities/fragment_editor.py:FragmentEditor.clone_fragment", "lcatools/entities/fragment_editor.py:FragmentEditor.create_fragment", "lcatools/entities/fragment_editor.py:FragmentEditor.transfer_evs"]}
{"id": "C90", "title": "Foreground: fragments survive saving and loading", "statement": "After save_fragments, whatever the directory held before, it holds exactly one file per reference fragment; a foreground that loads these files, in whatever order the directory lists them, has the same fragments with the same parents, children, flows, directions, flags, exchange values and terminations under each scenario, names and tags, and every traversal of every fragment under every scenario returns the same.", "quantifier": "all foregrounds whose fragments a file can hold, all previous directory contents and all listing orders", "why_tests_cant": "all foregrounds and directory orders", "anchors": ["antelope_catalog/foreground/foreground.py:LcForeground.save_fragments", "antelope_catalog/foreground/foreground.py:LcForeground._load_fragments", "antelope_catalog/foreground/foreground.py:LcForeground._do_load", "antelope_catalog/foreground/foreground.py:LcForeground._recurse_frags", "lcatools/entities/fragments.py:LcFragment.from_json", "lcatools/entities/fragments.py:LcFragment.serialize", "lcatools/terminations.py:FlowTermination.from_json", "lcatools/terminations.py:FlowTermination.serialize"]}
{"id": "C91", "title": "Foreground: an interrupted save leaves every tree as it was or as it is", "statement": "If saving a foreground over the files of an earlier save stops at any point, then either an unfinished file makes loading fail before any fragment is created, or loading gives every tree complete, either as last saved or as in the new state.", "quantifier": "all pairs of states, all crash points and all listing orders", "why_tests_cant": "all crash points", "anchors": ["antelope_catalog/foreground/foreground.py:LcForeground.save_fragments", "antelope_catalog/foreground/foreground.py:LcForeground._load_fragments", "antelope_catalog/foreground/foreground.py:LcForeground._do_load"]}
{"id": "C92", "title": "Catalog: a query finds an entity exactly if a resource of the origin has it", "statement": "cat.query(origin).get(ref), when it has no cached answer, returns the entity exactly if some resource whose reference is the origin or extends it by dotted terms has the entity, and returns that of the resource that comes first: loaded static archives first, then by priority number, then those of exactly the origin, then in order of registration; otherwise it raises EntityNotFound.", "quantifier": "all sets of resources, archive contents, origins and loaded states", "why_tests_cant": "all catalogs", "anchors": ["antelope_catalog/catalog/catalog.py:LcCatalog.query", "antelope_catalog/catalog/catalog.py:LcCatalog._sorted_resources", "antelope_catalog/catalog/catalog.py:LcCatalog.gen_interfaces", "antelope_catalog/catalog_query.py:CatalogQuery.get", "lcatools/interfaces/abstract_query.py:AbstractQuery._perform_query"]}
{"id": "C93", "title": "Catalog: fetch returns the entity of the resource that lookup found", "statement": "If lookup(origin, ref) returns an origin, fetch(origin, ref) returns the entity of the very resource that lookup found, which is the first of the resources of the origin that has it.", "quantifier": "all sets of resources, archive contents, origins and loaded states", "why_tests_cant": "all catalogs", "anchors": ["antelope_catalog/catalog/catalog.py:LcCatalog.lookup", "antelope_catalog/catalog/catalog.py:LcCatalog.fetch", "antelope_catalog/catalog/catalog.py:LcCatalog.query"]}
{"id": "C94", "title": "Catalog: answers do not depend on the queries made before", "statement": "What a fresh query (or lookup) of an origin answers does not depend on which queries, on which origins, were made before; and once a query of an origin has returned an entity it returns the same one, whatever happens in between, until it is refreshed.", "quantifier": "all histories of queries and of registered and deleted resources", "why_tests_cant": "all histories", "anchors": ["antelope_catalog/catalog/catalog.py:LcCatalog.query", "antelope_catalog/catalog/catalog.py:LcCatalog._sorted_resources", "antelope_catalog/lc_resource.py:LcResource.check", "antelope_catalog/catalog_query.py:CatalogQuery.get"]}
{"id": "C95", "title": "Foreground: create_forest builds one fragment per process of the foreground", "statement": "create_forest(process) leaves the fragments already there as they were and creates, for every process of the foreground it reaches, exactly one fragment, whose children are the dependencies of the process, ended in background fragments, and its foreground exchanges with their values, ended in the processes they name; a process used by exactly one exchange is a child there, one used by several is a fragment on its own that the exchanges end in; no exchange is lost if every process is at most ten exchanges away from the top or if the exchanges come in order; a process that already has a fragment is not built again.", "quantifier": "all archives, foregrounds (with loops and shared processes), dependencies and exchange orders", "why_tests_cant": "all foregrounds", "anchors": ["antelope_catalog/implementations/foreground.py:ForegroundImplementation.create_forest", "antelope_catalog/implementations/foreground.py:ForegroundImplementation._new_node", "antelope_catalog/implementations/foreground.py:ForegroundImplementation.find_or_create_term", "lcatools/entities/fragments.py:LcFragment.has_child", "lcatools/entities/fragment_editor.py:FragmentEditor.split_subfragment"]}
{"id": "C96", "title": "Foreground: entities and named fragments stay retrievable", "statement": "After any history of adding entities and naming fragments, every entity in a foreground archive is found by its link, its uuid finds an entity of that uuid, a name finds the fragment it was given to, each type lists its entities exactly once; what was added or named stays found, adding an entity again only adds missing properties to it, naming changes nothing else, and a naming that is refused changes nothing.", "quantifier": "all histories of add and name_fragment, all entities and references, all orders of set elements", "why_tests_cant": "all histories", "anchors": ["antelope_catalog/foreground/foreground.py:LcForeground._key_to_id", "antelope_catalog/foreground/foreground.py:LcForeground.add", "antelope_catalog/foreground/foreground.py:LcForeground.name_fragment", "lcatools/archives/entity_store.py:EntityStore.__getitem__", "lcatools/archives/entity_store.py:EntityStore._add", "lcatools/archives/entity_store.py:EntityStore.entities_by_type", "lcatools/entities/entities.py:LcEntity.merge"]}
{"id": "C97", "title": "Foreground: del_orphans deletes the background fragments that nothing ends in", "statement": "del_orphans(for_real=True) removes from the foreground exactly the background reference fragments in which no termination ends; without for_real it changes nothing.", "quantifier": "all reachable archives and terminations", "why_tests_cant": "all archives", "anchors": ["antelope_catalog/foreground/foreground.py:LcForeground.del_orphans", "antelope_catalog/foreground/foreground.py:LcForeground._del_f", "antelope_catalog/foreground/foreground.py:LcForeground._find_links"]}
{"id": "C98", "title": "Fragments: descending into a subfragment or aggregating it gives the same results", "statement": "The descend setting of a termination decides only how a traversal is presented: changing any such settings changes neither whether traverse() or inventory() succeeds, nor the inventory, nor how often each process is run, nor the cut-offs; with the contents of aggregated nodes put in place, scaled by their node weight, the same entries are listed in the same order.", "quantifier": "all models, fragments, scenarios, observed or cached, and any two assignments of descend settings", "why_tests_cant": "all models and settings", "anchors": ["lcatools/entities/fragments.py:LcFragment.traverse", "lcatools/entities/fragments.py:LcFragment.unit_inventory", "lcatools/entities/fragments.py:_do_subfragment_traversal", "lcatools/entities/fragments.py:LcFragment._traverse_subfragment", "lcatools/fragment_flows.py:FragmentFlow.aggregate_subfragments", "lcatools/terminations.py:FlowTermination.descend"]}
{"id": "C99", "title": "Fragments: the LCIA score is the sum of what the nodes contribute", "statement": "fragment_lcia returns a result whose total is the sum, over all nodes of the traversal including those inside aggregated subfragments, of node weight times unit score (negative where the termination runs against the fragment), whatever the descend settings and whatever was scored before.", "quantifier": "all models, fragments, scenarios, unit scores, descend settings and score caches", "why_tests_cant": "all models and histories", "anchors": ["lcatools/entities/fragments.py:LcFragment.fragment_lcia", "lcatools/fragment_flows.py:frag_flow_lcia", "lcatools/terminations.py:FlowTermination.compute_unit_score", "lcatools/terminations.py:FlowTermination.score_cache", "lcatools/lcia_results.py:LciaResult.add_summary"]}
{"id": "C100", "title": "Publications: a privacy declaration decides by scope and score", "statement": "A query of a known scope is let through exactly if the level declared for the scope (or, if none is declared, the base level) is absent, or is not negative and at least the score; an unknown scope is never let through; a lower score is never let through less; a declaration written and read back, with its entries in any order, decides the same for every scope and score.", "quantifier": "all declarations, scopes and scores", "why_tests_cant": "all inputs", "anchors": ["antelope_v2_server/antelope/authorization.py:PrivacyDeclaration"]}
{"id": "C101", "title": "Publications: what was published stays published as declared", "statement": "After any history of defining publications, deleting them and restarting the server, the server serves exactly the publications defined and not deleted, each with the allowed ones among the interfaces it was defined with and with the same privacy decisions; a request is answered by the publication of that name.", "quantifier": "all histories of define_av2_instance, define_av1_instance, delete_server and restarts, with a crash at any point", "why_tests_cant": "all histories and crash points", "anchors": ["antelope_v2_server/antelope/v2_catalog_server.py:CatalogServer", "antelope_v2_server/antelope/lc_pub.py:AntelopeV2Pub", "antelope_v2_server/antelope/lc_pub.py:LcPub.write_to_file"]}
{"id": "C102", "title": "Configuration: applying it again changes nothing", "statement": "If a configuration (references set and unset, flows characterized, processes allocated) can be applied to an archive, applying it a second time succeeds and leaves every exchange, allocation, reference, characterization and the termination index as they were, with or without overwrite.", "quantifier": "all archives, configurations and settings of overwrite", "why_tests_cant": "all inputs; needs induction over the options", "anchors": ["lcatools/implementations/configure.py:ConfigureImplementation.apply_config", "lcatools/implementations/configure.py:ConfigureImplementation.set_reference", "lcatools/implementations/configure.py:ConfigureImplementation.unset_reference", "lcatools/implementations/configure.py:ConfigureImplementation.allocate_by_quantity"]}
{"id": "C103", "title": "Configuration: a configured resource is the same after it is loaded again", "statement": "Options given one after the other to a loaded resource and accepted are stored with it, and loading the resource again from its source with the stored options gives the archive as it was; an option that cannot be applied is not stored; unset_reference without a process takes the reference from every process that has it.", "quantifier": "all sources, sequences of options and orders in which the stored options are read", "why_tests_cant": "all histories", "anchors": ["antelope_catalog/lc_resource.py:LcResource.add_config", "antelope_catalog/lc_resource.py:LcResource.apply_config", "lcatools/implementations/configure.py:ConfigureImplementation.check_config", "lcatools/implementations/configure.py:ConfigureImplementation.unset_reference"]}
{"id": "C104", "title": "Index: terminate yields exactly the complementary processes", "statement": "Terminating a flow in an indexed archive yields exactly the processes that have a reference exchange of the flow in the complementary direction (in any direction if none is given) when it was last indexed -- by re_index, by making the index interface or by applying a configuration -- each once if a direction is given; a direction is read by its first letter in either case, anything else is refused.", "quantifier": "all archives, flows, directions and configurations applied before", "why_tests_cant": "all inputs and histories", "anchors": ["lcatools/implementations/index.py:IndexImplementation.re_index", "lcatools/implementations/index.py:IndexImplementation.terminate", "lcatools/interfaces/iindex.py:comp_dir"]}
{"id": "C105", "title": "Inventory: exchange_values yields exactly the exchanges asked for", "statement": "exchange_values of a process and a flow yields, once each, exactly the exchanges of the process with that flow, in the direction and with the termination if they are given, only references or only others if so asked.", "quantifier": "all archives, processes, flows, directions, terminations and settings of reference", "why_tests_cant": "all inputs", "anchors": ["lcatools/implementations/inventory.py:InventoryImplementation.exchange_values", "lcatools/processes.py:LcProcess.exchange_values", "lcatools/implementations/basic.py:BasicImplementation.get_reference"]}
{"id": "C106", "title": "Inventory: exchange_relation is the amount per unit of the reference", "statement": "exchange_relation of a process, a reference flow, a flow, a direction and a termination is the total of the exchanges with that flow, direction and termination per unit of the reference flow; 0 if there is none.", "quantifier": "all archives, processes, reference flows, flows, directions and terminations", "why_tests_cant": "all inputs", "anchors": ["lcatools/implementations/inventory.py:InventoryImplementation.exchange_relation", "lcatools/processes.py:LcProcess.inventory"]}
{"id": "C107", "title": "Background: an archive answers for its own processes", "statement": "The background interface of an archive: background_flows are exactly the reference exchanges of its processes; exterior_flows are the flows no process terminates; a process is in the background iff the archive has it; a query for a process, given as a reference, as an object or as a reference exchange, is answered for that process and reference flow.", "quantifier": "all archives, directions, processes and forms of the argument", "why_tests_cant": "all inputs", "anchors": ["lcatools/implementations/background.py:BackgroundImplementation", "antelope_background/background/implementation.py:TarjanBackgroundImplementation._check_ref"]}
{"id": "C108", "title": "References: properties read as the entity has them", "statement": "Through a reference obtained from a query, a property is read as the entity has it, whatever was read before, from whichever resource of the origin has it; a property assigned to a reference is read back; merging references keeps the left one's properties; a reference can be asked for any number of times.", "quantifier": "all entities, properties, names, histories of reads, sets of resources", "why_tests_cant": "all inputs and histories", "anchors": ["lcatools/entity_refs/base.py:EntityRef.get_item", "lcatools/entity_refs/base.py:BaseRef.__setitem__", "lcatools/entity_refs/base.py:BaseRef.merge", "lcatools/implementations/basic.py:BasicImplementation.get_item", "lcatools/entities/entities.py:LcEntity.make_ref", "lcatools/entities/fragments.py:LcFragment.make_ref"]}
{"id": "C109", "title": "References: the factors of a flow reference are those of its source", "statement": "The factor of a quantity at a locale read through a flow reference is the one its source has, whatever was asked before; that of the reference quantity is 1.", "quantifier": "all flows, quantities, locales and histories of cf and profile", "why_tests_cant": "all histories", "anchors": ["lcatools/entity_refs/flow_ref.py:FlowRef.cf", "lcatools/entity_refs/flow_ref.py:FlowRef.profile", "lcatools/entity_refs/flow_ref.py:FlowRef.add_characterization"]}
{"id": "C110", "title": "References: a process reference answers for the reference asked for", "statement": "A query on a process reference is made for the reference flow given as an external_ref, a flow or an exchange, without one for the default; the default is the last valid one set, or the process's only reference.", "quantifier": "all processes, histories of default_rx, queries and forms of the argument", "why_tests_cant": "all histories", "anchors": ["lcatools/entity_refs/process_ref.py:ProcessRef.default_rx", "lcatools/entity_refs/process_ref.py:ProcessRef._use_ref_exch", "lcatools/entity_refs/process_ref.py:ProcessRef.exchange_relation", "lcatools/entity_refs/process_ref.py:ProcessRef.lci"]}
{"id": "C111", "title": "Archive: a complete archive survives writing and loading", "statement": "An archive written completely to a file and loaded again has the same quantities, flows and processes under the same uuids, with the same external references, properties, units, reference quantities, factors at every location, reference flows, exchanges, values and exchange relations; written with domesticate, their origin is that of the loading archive.", "quantifier": "all archives, properties, factors, locations and exchanges", "why_tests_cant": "all archives", "anchors": ["lcatools/archives/basic_archive.py:BasicArchive.serialize", "lcatools/archives/basic_archive.py:BasicArchive.entity_from_json", "lcatools/archives/basic_archive.py:BasicArchive._flow_from_json", "lcatools/archives/lc_archive.py:LcArchive._process_from_json", "lcatools/archives/lc_archive.py:LcArchive.serialize", "lcatools/characterizations.py:Characterization.serialize", "lcatools/entities/entities.py:LcEntity.serialize"]}
{"id": "C112", "title": "Index: an index of an archive, loaded from its file, knows its entities and references", "statement": "Loading the file of an index made from an archive gives exactly the quantities, flows and processes of the archive, with their external references, origins and properties; each flow has its reference quantity, with the factor 1, and no other factor; each process exactly its reference flows, without values, other exchanges or allocation.", "quantifier": "all archives, properties, factors and exchanges", "why_tests_cant": "all archives", "anchors": ["lcatools/archives/archive_index.py:index_archive", "lcatools/archives/archive_index.py:LcIndex.serialize", "lcatools/archives/basic_archive.py:BasicArchive.load_from_dict", "lcatools/archives/lc_archive.py:LcArchive._process_from_json"]}
{"id": "C113", "title": "Tables: every accepted item is in the cell of its row and column", "statement": "A table prints exactly the rows that accepted items have, sorted by their texts, with headings that can be read back; each cell is made of exactly the accepted items of its column and row; in a grid of flowables the numbers of a column of exchanges or LCIA components add up to the values of its items, and the non-zero numbers of a column of characterizations are exactly their non-zero factors.", "quantifier": "all columns, items, criteria and orders of the set of rows", "why_tests_cant": "all tables", "anchors": ["antelope_reports/tables/base.py:BaseTableOutput.add_column", "antelope_reports/tables/base.py:BaseTableOutput._build_row", "antelope_reports/tables/base.py:BaseTableOutput.dataframe", "antelope_reports/tables/base.py:BaseTableOutput.text", "antelope_reports/tables/flowables.py:FlowablesGrid._extract_data_from_item"]}
{"id": "C114", "title": "Flowables of an archive are the classes of its flows under name and CAS number", "statement": "Building the flowables of an archive fails with a CAS conflict exactly when a chain of common names and CAS numbers joins two flows with different CAS numbers; otherwise two flows are one flowable exactly when such a chain joins them, flowables() yields one (CAS number, name) for each class with a flow that passes the filters, sorted by name, and factors() of a flowable yields exactly the factors of the flows of its class.", "quantifier": "all archives of flows, filters, spellings and set iteration orders", "why_tests_cant": "all histories of additions and merges", "anchors": ["lcatools/implementations/quantity.py:QuantityImplementation._init_flowables", "lcatools/implementations/quantity.py:QuantityImplementation.flowables", "lcatools/implementations/quantity.py:QuantityImplementation.factors", "lcatools/implementations/quantity.py:QuantityImplementation.compartments", "synlist/flowables.py:Flowables"]}
{"id": "C115", "title": "Searching an archive yields exactly the entities that match", "statement": "search() by type yields each entity of the type whose properties contain a match of every pattern given for them, once and in order of uuid (without a type, in order of insertion), whatever the order of the keyword arguments; more keywords only narrow the result; nothing that does not match is ever yielded; the listings of the index agree with its counts; find_partial_id finds exactly the entities whose uuid begins with the text, upstream too if asked.", "quantifier": "all archives, properties, regular expressions and keyword arguments", "why_tests_cant": "all archives and patterns", "anchors": ["lcatools/archives/basic_archive.py:BasicArchive.search", "lcatools/archives/basic_archive.py:BasicArchive._narrow_search", "lcatools/archives/entity_store.py:EntityStore.find_partial_id", "lcatools/archives/entity_store.py:EntityStore.entities_by_type", "lcatools/implementations/index.py:IndexImplementation"]}
{"id": "C116", "title": "Charts show the results they are given", "statement": "A waterfall chart draws, for every result, one bar per stage with that stage's score, each beginning where the one before ends, all results at one common scale with the unit of that scale, and ends at the total (or within 10 ppb of the extent); a positive-negative chart draws bars whose heights are the sums of the positive and of the negative scores and marks the total, without bars overlapping; stacked bars place every value next to the earlier ones of its sign, inside the axes, data sets one below the other; the contributions queried for a chart are one score per stage.", "quantifier": "all results, stages, scales, colours and bar widths", "why_tests_cant": "all results and stages", "anchors": ["antelope_reports/charts/waterfall.py:WaterfallChart", "antelope_reports/charts/pos_neg.py:PosNegChart", "antelope_reports/charts/combi.py:stack_bars", "antelope_reports/charts/combi.py:_one_bar", "antelope_reports/charts/base.py:has_pos_neg", "lcatools/lcia_results.py:LciaResult.contrib_query"]}
{"id": "C117", "title": "A background manager answers for one product what the database says", "statement": "A new background manager asked about one product finds its foreground (the products it needs outside the background, itself first, each before those it depends on), reports its dependencies, emissions and foreground exchanges per unit of net output, and an inventory over net outputs that balance the foreground exactly and the background up to the truncated round of suppliers; a foreground without cycles always has an inventory.", "quantifier": "all databases, products, exact solvers, thresholds and limits; the foreground after any sequence of calls", "why_tests_cant": "all databases and call histories", "anchors": ["antelope_background/engine/background_manager.py:BackgroundManager", "antelope_background/engine/tarjan_stack.py:foreground", "antelope_background/engine/background_engine.py:make_foreground", "antelope_background/engine/background_engine.py:compute_lci"]}
{"id": "C118", "title": "An EcoSpold v1 archive is imported faithfully", "statement": "Whatever was fetched or loaded before and whichever of those calls failed, a process found in an EcoSpold v1 archive has, for each flow and direction its dataset mentions, one exchange whose value in the unit of the flow is the physical total of the amounts the dataset gives (in any mixture of units), nothing else, and as references its outputs of group 0 or 2. Later calls change nothing already there; load_all makes a process of every dataset; the physical content does not depend on the order of the calls.", "quantifier": "all archives, unit systems consistent with the conversion table and the answers of the user, histories of get and load_all including failing ones", "why_tests_cant": "all archives, unit mixtures, load orders and failures", "anchors": ["antelope_catalog/providers/ecospold.py:EcospoldV1Archive", "antelope_catalog/providers/ecospold.py:conversion_dict"]}
{"id": "C119", "title": "An openLCA JSON-LD archive is imported faithfully", "statement": "Whatever was fetched or loaded before or afterwards and whichever of those calls failed, a process that a successful call brings into an openLCA archive has, from then on, for each flow and direction of its file one exchange whose value is the total of the amounts, converted to the reference unit, and no other; its references are the quantitative references plus one exchange of each further product with an allocation factor; and the inventory of a reference carries of every other exchange the share that the stated factors of the default allocation method give its product (all of it, if there is no method or the factors sum to zero). Flows and flow properties agree with their files. Later calls change none of it, and load_all imports every process file.", "quantifier": "all archives with distinct unit names per group and distinct process names, histories of get and load_all including failing ones", "why_tests_cant": "all archives, unit groups, factors, load orders and failures", "anchors": ["antelope_catalog/providers/openlca_jsonld.py:OpenLcaJsonLdArchive"]}
{"id": "C120", "title": "EcoSpold 2 datasets are imported faithfully", "statement": "Whatever was fetched, loaded or scored before or afterwards and whichever of those calls failed, a reference product that a successful get or load_all with exchanges brings into an archive of linked (allocated) datasets reports, from then on, exactly its own dataset: the stated amount of the product, every other listed exchange per unit of the product, zero for exchanges listed only under other products of the activity; get of a process not held, and a first load_all, bring in every product the file names state; a dataset with two amounts for one exchange is never imported. In an archive of unlinked datasets the process has one exchange per flow, direction and link with the total amount, and its references are the marked products without a link; importing it again changes nothing.", "quantifier": "all archives whose files state the activity in their name and (linked) list no other product of it, all histories of get, load_all with and without exchanges and retrieve_lcia_scores, failures included", "why_tests_cant": "all datasets, load orders, histories and failures", "anchors": ["antelope_catalog/providers/ecospold2/ecospold2.py:EcospoldV2Archive"]}
{"id": "C121", "title": "ILCD archives are imported faithfully", "statement": "Whatever was fetched or loaded before or afterwards and whichever of those calls failed: a process that a successful get or load_all brings in has, from then on, one exchange per flow and direction with the total of the amounts stated, nothing else, and as reference the exchange the file names; every flow held has the factors of the properties listed and readable, and the named one as reference; a flow property converts between any two units of its group and has the unit the group names as reference; after a successful load_lcia_method (load_lcia, load_all for methods not held before) every flow then held has exactly the factors of the method file - the first of each location, the first of all elsewhere if it is worldwide - and keeps them; with load_all_flows=True all flows of the method are held, and any flow held at any later time has its factors.", "quantifier": "all ILCD archives (units numbered from zero and distinctly named for the unit claim), all histories of get of processes, flows, properties and methods, load_lcia_method, load_lcia and load_all, failures included", "why_tests_cant": "all files, load orders, histories and failures", "anchors": ["antelope_catalog/providers/ilcd/ilcd.py:IlcdArchive", "antelope_catalog/providers/ilcd/ilcd_lcia.py:IlcdLcia"]}
{"id": "C122", "title": "A file store reads what it lists, and its web cache is faithful", "statement": "For every zip or 7z archive and internal prefix with no sibling name starting like the prefix: every name listfiles gives can be read and is the last entry of that name below the prefix; a file of a zip archive is listed exactly if no folder in use has its name less one character, folder entries never; setting the prefix in two steps reads and lists as the joined prefix; listfiles(in_prefix) without dots gives the names that start so. For remote stores whose address ends in a slash, without query: after any history of stores sharing the cache, whatever is read was answered for that very address; what a caching store has read is given again to every caching store without a request until a forced read of it; forced, uncached and first reads give the answer to exactly one new request; listfiles gives exactly the files read below the address; no read fails for want of a cache directory.", "quantifier": "all archives, prefixes and names; all servers (answers varying in time), all histories of stores created and files read, failures included", "why_tests_cant": "all archives, names, server behaviours and call histories", "anchors": ["antelope_catalog/providers/file_store.py:FileStore"]}
{"id": "C123", "title": "The TRACI provider loads the first factor of each substance and answers queries the same at any time", "statement": "For every TRACI sheet: load_all succeeds, whatever was queried before, exactly if each row with a factor has a CAS cell that can be read, and raises ValueError otherwise; then the archive holds, for each lower-cased substance name, compartment and category, exactly the nonzero factor of the first row that has one, and after any history of loads (also failed) and queries no other; queries create only flows that load_all would create, each once, with the CAS number of a row that has a factor there. factors() gives every factor of the rows meant, of which the loaded one is the first (and the only one where no factor is given twice); flowables() gives the rows with a factor in the method and compartment; compartments() those of the first row of the flowable; these answers do not depend on the history. A CAS number of three to nine digits, written with hyphens, denotes that number again and finds exactly its rows.", "quantifier": "all sheets (numbers and texts in every cell), methods, flowables, compartments; all histories of load_all, factors, flowables and compartments", "why_tests_cant": "all sheets and call histories", "anchors": ["antelope_catalog/providers/traci/traci_2_1_spreadsheet.py:Traci21Factors", "antelope_catalog/providers/traci/quantity.py:Traci21QuantityImplementation", "antelope_catalog/providers/xl_dict.py:XlDict"]}
{"id": "C124", "title": "The ecoinvent LCIA provider loads all factors of the sheet or those before the first bad row", "statement": "For every indicator list and factor sheet: load_all succeeds exactly if every row has a number (in Known issue if that cell is not empty, else in the value column), no two rows have the same flow and the same method, and no flow is named like a method; then the archive has exactly the factors of the rows, and the methods and flows of list and rows, each once and as first described. Otherwise it has exactly the factors of the rows before the first bad one, load_all never succeeds later, and after the first attempt fails at the first row (DuplicateCharacterizationError) unless that was the bad one. Calling it again never changes the archive, and no factor is ever there that no row states. Without commas in compartments and subcompartments, different flows are different entities.", "quantifier": "all indicator lists and sheets (numbers and texts in the cells); all numbers of calls of load_all, caught errors included", "why_tests_cant": "all sheets and call histories", "anchors": ["antelope_catalog/providers/ecoinvent_lcia.py:EcoinventLcia"]}
{"id": "C125", "title": "A descendant of an archive has a new reference, overwrites nothing and can be read back", "statement": "For every archive history: create_descendant appends the signifier and the date to the reference, or replaces the date (and time) of an earlier descendant; the new reference is never the old one, references made on different days differ, and after any sequence of descents the reference is the first one with all signifiers and one date. It succeeds exactly if the file does not exist (or force is given), load_all does not fail, the reference is not itself a date, there is no slash in it and the file is not registered to another reference; then the archive has the new reference and source, all else is registered as before, and exactly the new file is written, with the names and entities of the archive. Without force no existing file changes, and if it fails no file does. The file read with its reference gives the same reference, registrations and entities.", "quantifier": "all references, signifiers, dates; all archive histories, upstream chains, outcomes of load_all, files already there", "why_tests_cant": "all references and histories", "anchors": ["lcatools/archives/entity_store.py:construct_new_ref", "lcatools/archives/entity_store.py:EntityStore.create_descendant", "lcatools/archives/basic_archive.py:BasicArchive.from_already_open_file"]}
{"id": "C126", "title": "The ecoinvent spreadsheet provider imports every flow and activity of the sheets", "statement": "load_all succeeds exactly if every activity has a uuid and a product that the sheets of flows know, and otherwise fails at the first that has not, at every attempt. Whether it succeeded or not, after any number of attempts: each unit is a quantity; each other name or elementary key is one flow, with the unit, name, compartment and properties of its first row, read in any spelling; nothing else is there. There is one process per activity uuid, described by its first row, whose exchanges are the products of its rows, each once, and whose references are those marked as reference products (after a failure, of the rows before it). The properties that are read are those that are written and read again.", "quantifier": "all sheets, internal or external, with any repetitions; any number of attempts", "why_tests_cant": "all sheets", "anchors": ["antelope_catalog/providers/ecoinvent_spreadsheet.py:EcoinventSpreadsheet._load_all", "antelope_catalog/providers/ecoinvent_spreadsheet.py:EcoinventSpreadsheet._create_flow", "antelope_catalog/providers/ecoinvent_spreadsheet.py:EcoinventSpreadsheet.load_activities"]}
{"id": "C127", "title": "An allocation grid shows the allocated inventories", "statement": "An allocation grid has one column for each process as it is (if asked for) and one for each of its references, provided that the inventory concerned has a non-reference exchange with a value. As text and as data frame it prints a block for each row that a column has an entry in and for no other, references first and then by direction, compartment and name; below it one line for each supplier, or flow, under which there is an entry; its number in a column is the sum of those entries, and the numbers of the lines add up to what the column holds in that row. For a process allocated by a quantity the columns of the references, weighted by their values, add up to the column of the process as it is. Every process is shown, the number of a reference is its value, and the table tells suppliers and flows apart.", "quantifier": "all processes, inventories, archives and orders of the set of rows; all histories of an allocated process", "why_tests_cant": "all tables", "anchors": ["antelope_reports/tables/allocation.py:AllocationGrid.add_column", "antelope_reports/tables/allocation.py:AllocationGrid._canonical", "antelope_reports/tables/allocation.py:AllocationGrid._extract_data_from_item", "antelope_reports/tables/base.py:BaseTableOutput._build_row"]}
{"id": "C128", "title": "A catalog keeps track of the files of its resources", "statement": "A source in the catalog's notation is found again, also after the catalog has been moved: what is in it at its new place, what is not where it was. Deleting a resource removes its source only if it is a file, no resource names it any more and it is internal or deletion was asked for, with it the cache files, and nothing else: no file another resource needs, no directory. The reference of an index stays the same, whatever else goes on, until it is deleted or made anew; calling again changes nothing, and its resource answers with what is in the file; deleting it deletes the file. A download gives the bytes transferred, complete and with the digest asked for. A foreground is one resource however it is named.", "quantifier": "all catalogs, paths, resources and options; all histories of resources, indices, deletions, downloads, foregrounds and new processes", "why_tests_cant": "any history and any moment in it", "anchors": ["antelope_catalog/catalog/catalog.py:LcCatalog._localize_source", "antelope_catalog/catalog/catalog.py:LcCatalog.abs_path", "antelope_catalog/catalog/catalog.py:LcCatalog.delete_resource", "antelope_catalog/catalog/catalog.py:LcCatalog._index_source", "antelope_catalog/catalog/catalog.py:LcCatalog.download_file", "antelope_catalog/catalog/catalog.py:LcCatalog.create_foreground"]}
{"id": "C129", "title": "Menus answer with what was offered", "statement": "In a menu the first line that says something decides, what says nothing is asked again, and the lines after it are left for the next question. Options get one letter each, all different, the first free one of their text, and can be chosen by it. A choice from a list, a menu or a series of narrowing questions (by type, tag, hierarchy) is one of the things offered; grouping loses and doubles nothing and each group holds the entities with its key in their order; going down a hierarchy keeps those with one path and comes to an end whatever is typed; every entity in a list can be picked by some input.", "quantifier": "all lists, options, entities, tags and hierarchies; all inputs, of any length", "why_tests_cant": "any input, most of them nonsense, and lists of any size", "anchors": ["lcatools/interact.py:_pick_list", "lcatools/interact.py:pick_list", "lcatools/interact.py:menu_list", "lcatools/interact.py:_group_by", "lcatools/interact.py:pick_from_groups", "lcatools/interact.py:pick_by_tag", "lcatools/interact.py:descend_hier", "lcatools/interact.py:select_subset", "lcatools/interact.py:pick_one", "lcatools/interact.py:cyoa", "lcatools/interact.py:get_kv_pairs", "lcatools/interact.py:pick_reference"]}
{"id": "C130", "title": "Tag counts are the numbers of entities with the tag", "statement": "The tags of an entity are its keys, with the parts of their values, each once, except the two excluded keys; the parts of a text are what is left between semicolons, commas, parentheses and slashes, without the white space these take, and no part is empty. Over any list of entities the count of a tag is the number of entities that have it (if something is searched for, among those with a matching tag), and the list beside it holds their uuids in order. It fails just when an entity has a value that is no text. Exchanges are counted by flow and direction.", "quantifier": "all entities, values, texts, searches and lists", "why_tests_cant": "any text and any list", "anchors": ["lcatools/tools.py:tags", "lcatools/tools.py:count_tags", "lcatools/tools.py:count_exchanges"]}
{"id": "C131", "title": "Text blocks are rendered with their variables", "statement": "In a text of a block each {{name}} (letters, digits, underscores) gives way to the value of that variable and everything else, percent signs and single braces included, stays as it is; rendering a text never fails. The value is the text of the last variable element of that name and empty for a name that has none. The block is its rendered texts, one per line, ordered by their indices.", "quantifier": "all texts, variable elements and text elements", "why_tests_cant": "any text, any number of elements", "anchors": ["antelope_catalog/providers/xml_widgets.py:_convert_variable_ref", "antelope_catalog/providers/xml_widgets.py:render_text_block"]}
{"id": "C132", "title": "Searching XML for tags", "statement": "Searching an element for a tag gives all elements of that name (namespace of the prefix, and tag) below it, at any depth, each once and in the order of the document, never the element itself; an empty text if there are none. Searching for one gives the first of them. A prefix the element does not know raises KeyError, and nothing else fails. The prefix of a data type is the first whose namespace ends with it, StopIteration if there is none.", "quantifier": "all elements, tags, prefixes and namespace maps", "why_tests_cant": "trees of any depth and width", "anchors": ["antelope_catalog/providers/xml_widgets.py:find_tag", "antelope_catalog/providers/xml_widgets.py:find_tags", "antelope_catalog/providers/xml_widgets.py:find_ns"]}
