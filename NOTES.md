# Reading notes (working file; findings found by reading /repo)

Planned Coq modules (rocq/theories): numbers idealised as exact rationals Qc (floats not modelled), python sets =
lists with explicit iteration order (oracle permutation), exceptions = values.

1. SynList.v  synlist/synlist.py.  state: _name,_entity,_list(option set),_dict,ignore_case.
   - _new_term (93-104) adds term to _list[index] BEFORE the TermFound check -> failed add_synonym leaves term in two sets (REFUTED atomicity/uniqueness)
   - merge(d, t) with t in same item as d destroys the item (_merge(i,i): list[i]=None) REFUTED
   - split_term: removes from set but key stays in _dict -> _new_set sees known -> returns None; set_name(term) renames OLD item. REFUTED
   - from_json(serialize) round trip up to renumbering/None items; unnamed empty item -> from_json raises KeyError.
   - are_synonyms equivalence; add_set merge semantics; find_indices.
2. Flowables (synlist/flowables.py): pad_cas/trim_cas laws; one CAS per item; _new_term sets _cas[index] before super()._new_term may raise TermFound (refuted atomicity);
   merge of two terms of same CAS item -> spurious ConflictingCas.  flowdb/synlist.py = older variant (new_set tests `i not in dict` unstripped; merge_set_with_index re-keys).
3. Compartments (lcatools/flowdb/compartments.py): _crawl_compartments pops shared clist across siblings: crawl [A,C] over root{A,B{C}} returns B;C if A visited first, None otherwise (hash-order dependent) REFUTED.
   unset_elementary(unset_children=True) calls set_elementary on children (bug). serialize/from_json roundtrip. add_sub under elementary parent => elementary.
4. Autorange (lcatools/autorange.py): scaled range in [1,1000]; adjust*prefix consistent; unit 'm' (metre) treated as milli -> '' (refuted).
5. Lcia results (lcatools/lcia_results.py): SummaryLciaResult.__add__ conserves cumulative; add_summary drops InconsistentSummaries into _failed (total+failed conserved);
   aggregate double-applies scale (total agg = scale*total) REFUTED unless scale=1; aggregate's try/finally re-raises lambda failure (doc says grouped under other) REFUTED;
   apply_weighting: add_component then add_summary -> Aggregate += Summary -> TypeError ALWAYS when any component REFUTED;
   LciaResult.__add__ reparents self's components to new result with scale 1 (mutates operand; total of operand changes if scale != 1) REFUTED;
   flatten total = total*apply_scale when it returns; private nested -> r.keys()=[None] -> KeyError; contrib_new sum(results)+balance=total*autorange.
6. Process/exchange (entities/processes.py, exchanges.py): is_reference <-> in reference_entity over histories; terminated never reference; partition allocation sum_ref x[ref]*ref.value = x.value when alloc_sum fresh;
   stale _alloc_sum when reference value set later / add_dups / remove_reference to zero total (REFUTED); value set once; value_dict set once per ref; JSON roundtrip (_process_from_json lc_archive.py:86): exchange without value is dropped on load; ref_x keyed by flow only.
7. Background engine (antelope_background/engine): Tarjan traversal = SCCs (both directions); bg closed under dependency; fg topological order; while loop terminates; compute_bg_lci partial sums: total - A total = ad - x_final;
   incremental add_ref_product: entries sorted to _foreground before they become downstream never move to _interior -> A misses deps (REFUTED order independence); background change -> a_matrix not rebuilt, ndim mismatch (REFUTED);
   _rm_product_flow_children: IndexError on empty _interior_incoming[-1]; labelled SCCs not removed, index reused -> bogus SCC (REFUTED).
8. Fragments (entities/fragments.py, fragment_flows.py, terminations.py): traversal linear in upstream weight; balance flow conserves quantity; group_ios nets; reverse_direction no effect; scenario precedence/conflict;
   terminate() loop check misses descend=False subfragments -> infinite recursion (REFUTED); exchange_value 0 -> cached_ev `or 1.0` : setting cached ev 0 reads back 1.0 (REFUTED);
   _match_scenario_ev; FragmentFlow.__add__; group_ios CumulatingFlows.
9. Entity store (archives/entity_store.py): _add uniqueness, ents_by_type coherence, counters; _add_name: source registered to <=1 ref; override branch `_catalog_names[ref] = pop(k)` drops ref's previous sources (REFUTED); get_sources(name) creates empty entry in defaultdict (query mutates);
   upstream first lookup.
10. LowerDict (entities/lower_dict.py): case-insensitive map refinement; get/__delitem__/setdefault/update not overridden.
11. Characterization (lcatools/characterizations.py): __getitem__ location fallback, set once, add_value overwrite.
12. still to read: qdb/qdb.py, catalog/lc_resolver.py, lc_resource.py, catalog.py, entities/entities.py, flows.py, foreground.py, flat_background.py, interact.py parse_math, reports/tables, fragment_editor, entity_refs.
13. flows.py: changing reference quantity rescales all cfs: convert(val,to,fr) invariant; add_characterization(q2, reference=True) when q2 already has GLO raises Duplicate AFTER changing reference (REFUTED atomicity); serialize drops non-GLO locations; LcFlow.merge passes a Characterization as quantity -> AttributeError always when other has new cf (REFUTED).
14. lc_resource.py/lc_resolver.py: satisfies any-of; write_to_file replace-or-append, one entry per source; open('w')+dump not crash atomic -> crash loses all resources of ref (REFUTED); delete_resource of store=False resource: os.remove FileNotFoundError after memory removal; has_resource inserts [] in defaultdict => resolve no longer raises UnknownOrigin; resolve = prefix match; get_resource lowest priority.
15. LcEntity: __eq__ by (external_ref, origin, type), __hash__ by (origin, uuid): eq without equal hash; origin/external_ref set-once. comp_dir involution; check_direction.
    trim_cas in interfaces.
16. qdb.py: do_lcia(quantity, inventory, locale) stores the located factor on the flow under GLO -> a later do_lcia with another locale reuses the first locale's factor (history dependence, REFUTED); convert precedence: same quantity -> 1.0; quell biogenic CO2; None when no value; CLookup.find distances; convert_reference passes a quantity (not index) to _q.entity -> AttributeError on found conversion; add_cf indexes all matching flowables.

## Foreground files (C90, C91)
* A reference fragment is saved with `parent` = the string "None" (`_print_ref_field`), so `from_json` looks up `fg["None"]`: a fragment named "None" becomes the parent.
* Balance flows with a stored value other than 1 cannot be loaded (`cached_ev` setter raises DependentFragment after `set_balance_flow`).
* `clone_fragment(origin=...)` with a different origin raises for fragments with children (children keep their own origin).

## create_forest (antelope_catalog/implementations/foreground.py 217-370)
* `fx[0]`, `fx[1:]` (311, 315) need a list; the local background implementations return generators: TypeError.
* at most ten passes over exchanges given out of order, then they are abandoned with a message only (325-329).
* `has_child` does not distinguish a dependency's child from an exchange's: a dependency that is also a foreground exchange (FlatBackground.dependencies yields the foreground ones too) hides it, and no node is made.
* two exchanges with the same process, flow, direction and termination: the second value is dropped.

## Foreground archive index (antelope_catalog/foreground/foreground.py)
* `name_fragment` checks the name, not the link it gives: an entity with that external_ref in the same origin is replaced in `_entities` (223-234).
* `add` of a stored link merges into `self[entity.uuid]` (194), which may be an entity of another origin with the same uuid; AttributeError if the uuid is unknown.
* `EntityRef.merge` says "left argument is dominant" and then does `self._d.update(other._d)` (entity_refs/base.py:155-156).
* `_del_f` deletes `self._entities[f.uuid]`, but keys are links: KeyError always (383).

## C99 fragment LCIA (found while modelling)
* `FlowTermination.score_cache` stores a null result for a descended subfragment; when `descend` is set to False later, `fragment_lcia` uses the null result and the subfragment's score disappears (refresh=True avoids it).
* `frag_flow_lcia` negates an aggregated subfragment whose termination has the fragment's own direction; the descended traversal has no such sign.
* `frag_flow_lcia(ff.subfragments, ...)` drops the scenario: an empty aggregated node inside an aggregated node is scored with `fragment_lcia(scenario=None)`.
* An aggregated node with zero magnitude and nonzero node weight (reference fragment with value 0) raises TypeError (`_subfrags_params` is None).

## Publications (antelope_v2_server)
* `_check_server` reads `pub.type`, which no publication has (`_type`): defining a name twice raises AttributeError, not KeyError.
* `define_av1_instance` never writes the publication; it is gone after a restart.
* `delete_server` removes the file only: the publication is served, and its name cannot be defined again, until the restart.
* `CatalogServer.__init__` fails as a whole if one published origin is unknown or one file is truncated (crash in `write_to_file`).
* `__getitem__` answers a request for an unpublished name from any publication whose name begins with it.

## Configuration (lcatools/implementations/configure.py, antelope_catalog/lc_resource.py)
* `apply_config` is not idempotent on allocated processes: `allocate_by_quantity` skips what is already allocated, `set_reference` (which comes first) recomputes; a stale total changes only at the second application.
* stored `set_reference` entries are applied before stored `unset_reference` entries: unset-then-set is lost on reload.
* `add_config` stores the option before applying it; `check_config` accepts "output" (by first letter) while `set_reference` needs "Output": the resource then fails to load.
* `unset_reference(None, flow, direction)` removes from the set it iterates over: RuntimeError after the first process.
* `terminate(flow)` yields a process twice if it has reference exchanges of the flow in both directions; the index is not updated by direct `set_reference`.
* `CatalogServer.__getitem__` see above; `implementations/inventory.py` `fragment_lcia` uses `frag.top.` without calling it.

## Inventory and background queries
* `exchange_relation` divides the normalised inventory by the reference's value again (inventory.py:45-66).
* `exchange_values(reference=True)` ignores direction and termination; an unknown flow in a static archive is None and matches every exchange.
* proxy `exterior_flows` uses `self.is_elementary`, which is commented out in abstract_query.py: AttributeError at the first exterior flow.
* proxy `is_in_background` is True for everything in a static archive (`get` returns None instead of raising); proxy `bg_lcia` passes the process object to `lci`: AttributeError.
* Tarjan `_check_ref` given a process object returns the reference exchange, not the flow's external_ref: `is_in_background` silently False, `bg_lcia` KeyError.

## Entity references (lcatools/entity_refs)
* `get_item` queries stop at the first KeyError: a static first resource without the entity, or an entity without the property, hides the second resource; a property that is None raises EntityNotFound.
* `ref['Key'] = v` stores `local_key`, reading looks for `Key` and `local_Key`.
* `LcFragment.make_ref` calls `set_config` on the memoised reference: the second call raises AttributeError.
* `FlowRef.cf` caches the first locale's value and answers later locales from it (0.0 unless GLO); QuantityRequired is cached as 0.0.
* `ProcessRef._use_ref_exch` fails on strings; `exchange_relation(None, …)` always AttributeError; `FragmentRef.bg_lcia` passes the scenario twice: TypeError.
* `QuantityRef.convert` is outbound / inbound of `UnitConversion`, with no check that units exist (KeyError / None subscript).
- Archive files (C111): a factor known for a single location is written without it and read back as global (characterizations.py:65-74,
  164); beside a global factor other locations are not written; factors (even of the reference quantity) for quantities outside the archive are
  skipped silently; a property named `tags` (old-format marker), `external_ref` or `entity_type` makes the written file unreadable.

## Tables (antelope_reports/tables)
* `FlowablesGrid` keeps the base class's single `_far_headings`, so `text()` formats one argument too few: printing a grid always raises TypeError (C113_refuted_text).
* `text()` reads `prt_row[0]`: a row whose cells are all empty dicts raises IndexError; `dataframe()` silently drops it (C113_refuted_row_lost).
* sub-rows are sorted by `x[-2]`, the last character but one of a text; a one-character location raises IndexError (C113_refuted_short_location).

## Quantity implementation (lcatools/implementations/quantity.py, C114)
* `factors(quantity, flowable)` turns an unknown flowable into index None, which means "no filter": every factor is yielded; `compartments` ignores both arguments.
* two flows of one name with different CAS numbers make every `flowables()` call raise ConflictingCas; a CAS number padded with some zeros only, used twice, raises TermFound; a blank name gives the key '' and absorbs all flows without a CAS number.

## Archive search (basic_archive.py, C115)
* `search(upstream=True)` calls `self._upstream.search(…)`, a generator, and drops it: the upstream archive is never searched.
* `_narrow_search` tests `k not in entity.keys()`; `LowerDict.keys()` gives plain strings, so `search(name=…)` finds nothing where `entity['name']` works; a numeric property raises TypeError.

## Charts (C116)
- lcia_results.py:745-747: the "contributions do not equal total" message divides by the total: ZeroDivisionError for a zero total.
- lcia_results.py:737: without stages, entities are looked up as keys (components keyed otherwise count as 0), so has_nonzero/has_pos_neg are wrong for fragment results.
- waterfall.py:156-168: include_net=False with a remainder leaves more data than styles: IndexError at styles[i].
- waterfall.py:171-175: _span is computed before _adjust_autorange rescales the data.
- waterfall.py:340: style['color'] is overwritten in a dict shared by all panels: later results are drawn faded (again).
- base.py:47-53: hue_from_string uses an undefined name `s`: stack_bar_figure/scenario_compare_figure without hues raise NameError.
- pos_neg.py:86-91: positive-only results are 1-2*bar_width apart: bars overlap for bar_width > 0.35.

## Background manager (C117)
- background_manager.py:211: `ems.emission` does not exist on Emission: inventory() of a background product with an emission raises AttributeError.
- background_manager.py:217-232: the direction is taken from the sign but the value keeps it: an output is reported as an output of a negative amount; the background branch of dependencies() does the same.
- A treatment process (reference an input) gets all signs flipped: dependencies() reports inputs as outputs, emissions() and lci() negative emissions.
- A product asked for first and pulled into the background by a later question keeps its entries in the foreground lists only: the same lci() afterwards loses its emissions (cf. C35).

## EcoSpold v1 import (C118)
- ecospold.py:212-219: processes are keyed by name only: a second dataset of the same name (another location) is silently dropped; line 210: further <dataset> elements of a file are ignored.
- ecospold.py:137,121,212: flow numbers, units and process names share one uuid namespace: a process named "kg" or "1" raises KeyError/AssertionError and stops load_all, leaving the flows behind.
- ecospold.py:255-257: get(key) of a file whose dataset has another name loads it and returns None.
- ecospold.py:237-239: add_exchange returns None for a zero-valued duplicate; setting its comment raises AttributeError.
- ecospold.py:147-160: a flow's reference unit is the unit of the first exchange seen, so it depends on the load order.

## openLCA JSON-LD import (C119)
- openlca_jsonld.py:249: the process is added before its exchanges are read: after a failed import get() returns the truncated process.
- openlca_jsonld.py:183-185: `'…%s…%s…%s' % p.uuid, a, b` raises TypeError: an exchange in a flow property other than the flow's reference property can never be imported; the conversion intended (line 187) multiplies by cf(reference) = 1 in any case.
- openlca_jsonld.py:117-119: the allocation quantity is named by the process name and type only: a second process of the same name (another location) raises DuplicateCharacterizationError and is left unallocated.
- openlca_jsonld.py:221: a product with an allocation factor and amount zero raises ZeroDivisionError.
- openlca_jsonld.py:203-206: causal factors are skipped but the default method is still applied: silently unallocated.
- openlca_jsonld.py:160: other flow properties are characterized at the flow's location only, so cf() is 0 for a flow with a location.

## EcoSpold 2 import (C120)
- ecospold2.py:417-463: the process and its reference are added before the exchanges: after a failed import get() and load_all() take the truncated process for complete.
- ecospold2.py:504-554: retrieve_lcia_scores() creates the process without exchanges; get() then returns it empty.
- ecospold2.py:387-400 / 556-567: load_all(exchanges=False) followed by load_all() or get() never loads exchanges (the reference exists, and `_loaded` is set).
- ecospold2.py:432-463: a dataset with the same flow listed twice cannot be imported (DuplicateExchange); a second listing of amount zero with a comment raises AttributeError (unlinked).
- A dataset that lists another reference product of its activity: ValueError or a silently lost amount, depending on the order of a set.
- ecospold2.py:197-231: a flow's unit is that of the first dataset seen; amounts stated in another unit are stored unconverted.
- ecospold2.py:499: `_process_flow_map` is a defaultdict: get() of an unknown id adds a process to count_by_type() and processes() (which then yields None).
- Unlinked dataset whose named product is not marked (or is linked): load_all() after get() raises DuplicateExchange.

## ILCD import and LCIA factors (C121)
- ilcd.py:298: the reference unit is found by position, not by dataSetInternalID: a unit group numbered from 1 gives the wrong unit or IndexError (and then no process with such a flow can be loaded).
- ilcd.py:405: the process is added before its exchanges: after a failure (add_exchange returns None for a zero duplicate with a comment, line 469) get() returns the truncated process.
- ilcd.py:373-396 / flows.py:162-206: a reference property with meanValue other than 1 raises ValueError; a property whose file or unit group is missing is dropped in silence, also the reference; a property listed twice keeps the first value even if the second is the reference.
- ilcd_lcia.py:98-101: has_characterization(q, 'GLO' or None) is true as soon as any location is known: a worldwide factor after a regional one is lost; the exchange direction of a factor is ignored, so of separate input and output factors only the first is kept.
- ilcd_lcia.py:123-129: load_lcia() and load_all() pass over methods already held: a method fetched by get() never gets its factors, and flows fetched after load_lcia() have none.

## File stores (C122)
- file_store.py:209-213: `q[:-1] not in self._internal_subfolders` is meant for folder entries but also hides files: data1 next to data/, and (q[:-1] == '') every one-character name at the top.
- file_store.py:203,213: `startswith(self._internal_prefix)` without a slash: library/y is listed under the prefix lib, with its full name, and cannot be read.
- file_store.py:187,238: prefixes are used as regular expressions (a dot matches anything, parentheses and plus signs break).
- file_store.py:103,256-283: the query string is not part of the cache key; an address without a final slash makes urljoin drop its last part, and caches the wrong file; cached file x makes x/y unreadable (NotADirectoryError is not FileNotFoundError; makedirs fails); only 'http' is in the table, https raises KeyError.
- file_store.py:103,123: internal_prefix of a remote store is applied to the cache (whose folder does not exist) and not to the url.
- file_store.py:108-116: a store whose path does not exist has no attribute `cache`: listfiles and readfile raise AttributeError.

## TRACI (C123)
- traci/quantity.py:7,18: CAS_regexp allows at most six first digits (CAS numbers have up to seven): a formatted ten-digit CAS number goes to int() and raises ValueError, which aborts load_all (and every query that meets the row); the number is never found by row_for_key.
- traci/quantity.py:10-19: an empty CAS cell ('' from xlrd) raises ValueError, out of load_all or from the middle of flowables().
- traci/quantity.py:24-31: get_canonical() of a quantity entity asks the archive for it by key: uuid.UUID(entity) raises AttributeError, so entities cannot be used as quantities at all.
- traci/quantity.py:33-63: get_canonical() gives None for an unknown name, which flowables() and compartments() take for "all quantities" (factors() gives none).
- traci/quantity.py:46: next() of an unknown flowable raises StopIteration in a generator (RuntimeError since Python 3.7); only the first row of the name is looked at.
- traci_2_1_spreadsheet.py:95-105: queries create flows in the archive; the CAS number of a flow is that of whichever row was asked for first.

## ecoinvent LCIA (C124)
- ecoinvent_lcia.py:132-136: any text in 'Known issue' is taken for the value: float() raises ValueError out of load_all, and the rows from there on are never loaded.
- ecoinvent_lcia.py:138-147: a flow and method given twice raise DuplicateCharacterizationError; after any failure load_all fails at the first row for ever (its factor is already there).
- ecoinvent_lcia.py:90-109: the unit of the first description (indicator list) is kept for factors stated in another unit.
- ecoinvent_lcia.py:82-88: keys joined by ', ' merge flows (methods) that differ in where the comma is; a flow named like a method raises AttributeError or AssertionError.

## Descendants (C125)
- entity_store.py:41-58, 305-322: without signifier, base.DATE -> base.DATE-HHMM -> base.DATE: the third descendant of a day has the reference of the first (EnvironmentError, or with force=True the first one's file is replaced).
- entity_store.py:53, 317: `[0-9-]{6,}$` takes any name ending in six digits or hyphens for a date and drops the whole last component (local.ecospold-201512 and local.traci_201301 have the same descendants); of a reference without dots nothing is left, and '.DATE' is refused after `_source` was changed.
- entity_store.py:49, 313: re.match looks at the start of the signifier only: 'a/b' is accepted and fails at gz.open, after the archive has taken the new reference and source.
- entity_store.py:257-260: `_set_source` sets `_source` before `_add_name` may raise.
- basic_archive.py:49-70: from_file takes 'dataReference' of the initArgs (the original's reference) for that of the file, which is registered to the descendant's: SourceAlreadyKnown for every descendant.

## Ecoinvent spreadsheet (C126)
- ecoinvent_spreadsheet.py:271: f.update(kwargs) is dict.update on a LowerDict (lower_dict.py does not override it): plain keys are added beside the case-insensitive ones. flow['CasNumber'] is that of the first row, but serialize() writes that of the last; after loading the file the flow has another CAS number, comment, formula.
- ecoinvent_spreadsheet.py:387-399: a product that is not in the sheets: self[...] is None and add_exchange raises AttributeError out of load_all, after the process was added; every later call fails at the same row.
- ecoinvent_spreadsheet.py:239,261: units and flow names share one namespace: a product named like a unit is the quantity.
- ecoinvent_spreadsheet.py:261: a second unit for the same flow is ignored.

## Allocation grid (C127)
- allocation.py:87: every reference is shown as 1.0, also in the column of the unallocated process, whose other numbers are not per unit of it.
- allocation.py:70-82, 117, 122: a process (or reference) whose inventory has no valued non-reference exchange gets no column and no message; columns are not numbered like the processes given.
- allocation.py:40-52: suppliers are told apart by name only; for a supplied exchange the flow's name and compartment, by which rows are made, are not printed.
- base.py:161: lines are sorted by the last character but one of their text (x[-2] is meant for a tuple); a text of one character raises IndexError.
- allocation.py:16-25: the criterion of the base class is not asked.

## C128 catalog files (catalog.py)
* `_localize_source` compares text: with root `/data/cat` the path `/data/cat2/usl.zip` becomes `$CAT_ROOT2/usl.zip`, and moves with the catalog (C128_refuted_neighbour). The root is also used as a regular expression: a root with `+` or `(` in it breaks.
* `delete_resource` compares the text of sources: a file named `$CAT_ROOT/..` by one resource and by its absolute path by another is removed although it is still needed (C128_refuted_two_names).
* Caches are left behind when the source is a directory or gone, and are applied to the next resource of that source (C128_refuted_cache_left). The `rmtree` branch is never reached: `isfile` was asked before.
* A resource without a source (not downloaded yet) is deleted, and then TypeError is raised (C128_refuted_no_source).
* `index_ref(force=True)` on another day adds a second resource for the same file, and the first is found by later calls (C128_refuted_forced); on the same day the resource "already exists" and goes on holding the old archive (C128_refuted_forced_today).
* The index of a resource added with `store=False` cannot be deleted: FileNotFoundError, after the resource is gone from memory; the file stays and is used again (C128_refuted_not_stored).
* `download_file` keeps a file whose digest is wrong, or whose transfer was interrupted, and returns it on the next call (C128_refuted_digest, C128_refuted_cut_short).

## C129 (interactive menus, lcatools/interact.py)

* `_pick_list` accepts every number below the number of items, negative ones included (`int(c) < len(items)`): `-1` picks the
  last item, a smaller one raises `IndexError` in the caller, also with an empty list.
* An option whose text begins with a digit gets that digit as its letter, which is then read as the number of an item.
* `menu_list` passes `items=None`; typing a number raises `TypeError` (`len(None)`).
* With 27 options a menu may raise `StopIteration` (no letter left).
* `cyoa` tests `i.lower() in valid.lower()` on texts, so the empty line and any piece of the words offered are valid.
* `descend_hier` and `select_subset` stop when a level (tag) has one group only, even if the entities differ further down.
* `filter_processes` goes through 'Classifications' as soon as one process has them, and raises `KeyError` if another has not.
* In `pick_one`, "done (keep all)" at the question for the type returns `None` ("No item selected.").

## C130 (tag counts, lcatools/tools.py)

* `tags` raises `TypeError` for an entity with a number (or anything but None, a text or a list of texts) under any key other
  than 'TemporalScope' and 'IsicNumber'; `count_tags` then fails for the whole list, even if the entity is not searched for.
* Two properties may give the same tag (`{'a': 'b=c'}` and `{'a=b': 'c'}`).

## C131 (text blocks, xml_widgets.py)

* Indices of texts are compared as texts: the tenth text comes before the second.
* A block without text elements raises `AttributeError` (`find_tags` returns `['']`).
* A variable element without text is put in as `None` if there is another variable, and as nothing if it is the only one.

## C132 (tag search, xml_widgets.py)

* A tag that is not there gives the text `''`, which has neither attributes nor children: callers that ask for `.attrib` fail with
  `AttributeError` (see C131).
* `find_ns` raises a bare `StopIteration` for a data type that has no namespace.
