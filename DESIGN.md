# Formal model of bkuczenski/lca-tools in Rocq (Coq 8.16.1)

Properties: `properties.jsonl`. Claims/theorems: `MANIFEST.json`. Sources: `rocq/theories/*.v`.
Reading notes with defects found: `NOTES.md`. Mutation log: `seeded/LOG.jsonl`.

## Method

* For each topic `X` there are up to three kinds of files: `XModel.v` (Gallina transcription of the Python, branch by branch,
  each definition citing `/repo` file:lines and stating its simplifications), `XProofs*.v` (lemmas), `XProps*.v` (specification and
  property theorems, with `Print Assumptions` and non-vacuity `Example`s).
* Python exceptions are values: a modelled method returns the state after the call and the outcome, so the effect of an exception
  raised half-way through a mutation is visible.
* Python sets/dicts with hash order are lists; where iteration order can matter the order is an explicit argument (or an arbitrary
  permutation) the theorem quantifies over.  Insertion-ordered dicts are association lists.
* Strings are Coq `string` (8-bit characters) where the content matters (terms, CAS, names, origins, units, file names) and
  otherwise numbers standing for them.
* Numbers: Python floats are idealised as exact rationals (`Qc`); rounding is NOT modelled. The loop of AutoRange on log10 is modelled
  on the number itself (exact reformulation).
* Histories are lists of calls run from the initial object; a theorem "after any history" is by induction over that list, the calls that
  raise included.  Crash points are the list of intermediate disk states of an operation.
* Unbounded recursion and `while` loops take fuel; the theorems either show that some explicit fuel suffices or that the outcome
  "fuel used up" is impossible/irrelevant.
* Where the shipped code violates the property as a user would state it: a theorem `..._refuted...` exhibits a run
  of the faithful model that violates it (or shows it for all inputs of a class), and `..._partial` proves the property under the guard that excludes it.

## What is modelled, and how

| topic | files | code | main simplifications |
|---|---|---|---|
| synonym lists | SynList*, Cas*, Flowables* | `synlist/synlist.py`, `synlist/flowables.py` | entities are numbers; terms are strings |
| compartments | Comp* | `lcatools/flowdb/compartments.py` | rose trees: parent pointers and ids are positions; set order = list order, quantified |
| number formatting | AutoRange* | `lcatools/autorange.py` | exact rationals |
| LCIA results | Lcia* | `lcatools/lcia_results.py` | object graph as nested inductive results; exact rationals |
| processes | Proc* | `entities/processes.py`, `exchanges.py`, process part of `archives/lc_archive.py` | one process; exchange identity = key; factors constant |
| background engine | Bg* | `antelope_background/engine/*.py` | fixed database; product flow identity = key; matrices as entry lists; recursion limit not modelled |
| flat background | Flat* | `antelope_background/background/flat_background.py`, `make_foreground` | as above; scipy storage of explicit zeros is modelled; direct solvers are not |
| fragment editor | Edit*, Interpose*, Split*, TravSim, Observe*, TravCopy, Clone* | `lcatools/entities/fragment_editor.py`, `LcFragment.observe` | non-interactive; names, units and stages are not modelled; uuids of new fragments are arguments |
| foreground files | Fg* | `antelope_catalog/foreground/foreground.py` 244-297, `LcFragment.from_json`, `serialize`, `FlowTermination.from_json`, `serialize` | entities.json and the catalog find every flow and process again; score caches, tags that are not strings, two files with different names for one uuid are not modelled; writing a file is two steps (opened, finished) |
| catalog queries | Cat* | `antelope_catalog/catalog/catalog.py` 525-591, `CatalogQuery.get`, `AbstractQuery._perform_query`, `LcResource.check`, `BasicImplementation` | an archive is a constant function from references to answers; entities are numbers and equal to their references; basic interface only |
| fragments | Frag* | `entities/fragments.py`, `terminations.py`, `fragment_flows.py` | heap of one foreground; no score caches; no remote fragments |
| entity store | Store* | `archives/entity_store.py`, `local_ref`, part of `basic_archive.py` | heap of entities; `_key_to_id` arbitrary per archive class; upstream chain |
| property dicts | Lower* | `entities/lower_dict.py`, properties of `entities/entities.py` | hash of a string is injective |
| flows | Flow* | `characterizations.py`, quantitative part of `entities/flows.py` | values are None or rationals |
| misc | Misc* | `interfaces/iindex.py` directions, entity/ref equality, unit conversion | |
| quantity db | Qdb* | `qdb/qdb.py` (find, convert, do_lcia) | constant database; set order `db_ord` quantified |
| resources | Res* | `antelope_catalog/lc_resource.py`, `catalog/lc_resolver.py` | disk = dict of file name to parsed or broken content; crash points |
| forest | Forest* | `antelope_catalog/implementations/foreground.py` 120-138, 217-370, `LcFragment.has_child`, `FragmentEditor.split_subfragment` | fragments reduced to parent, flow, direction, value, background flag and termination; `observe` left out; foreground exchanges given as a list, as the interface promises: the local implementations return generators, on which `fx[0]` (line 311) raises TypeError |
| foreground index | Far* | `antelope_catalog/foreground/foreground.py` 57-91, 174-197, 207-239, 381-405, `EntityStore._add`, `__getitem__`, `entities_by_type`, `LcEntity.merge`, `EntityRef.merge` | `to_uuid` and the choice of `next` on a set arbitrary; no upstream; `make_ref` not memoized; subclass parts of `merge` (characterizations) left out; whether a termination ends in a fragment is an arbitrary predicate |
| descend, fragment LCIA | Descend*, FfLcia* | `frag_flow_lcia`, `fragment_lcia`, `compute_unit_score`, `score_cache` | unit scores of ordinary terminations given and constant; terminations known by fragment, node, flow and direction; one quantity |
| publications | Pub* | antelope_v2_server: authorization.py, lc_pub.py (AntelopeV2Pub), v2_catalog_server.py | integer scores; one file per name; fragments and mappings of version 1 publications not modelled; HTTP server not modelled |
| configuration | Conf* | implementations/configure.py, implementations/index.py (re_index, terminate), lc_resource.py (add_config, apply_config), flows.py (characterizations) | locations other than GLO, fragments in the index, printing not modelled; sets iterate in the order of the modelling list |
| inventory and background queries | Inv* | implementations/inventory.py (exchange_values, inventory, exchange_relation), implementations/background.py, antelope_background/background/implementation.py (_check_ref) | searches and printing not modelled; generators are lists |
| entity references | Ref* | entity_refs/base.py (properties, merge), flow_ref.py (cf, profile, add_characterization), process_ref.py (default_rx, _use_ref_exch, lci, foreground, exchange_relation), make_ref of entities and fragments, get_item queries | printing, serialization of references, CatalogRef.lookup not modelled |
| archive files | Jar* | archives/basic_archive.py and lc_archive.py serialize, load_from_dict, entity_from_json; serialize of entities, flows, characterizations | catalog names and init arguments (C69), upstream archives, compression not modelled |
| tables | Table* | antelope_reports/tables/base.py, flowables.py | formatting, pandas and Excel output not modelled |
| quantity implementation | QImpl* | lcatools/implementations/quantity.py | properties as texts; factors known by flow and quantity; non-static archives not modelled |
| archive search | Search* | lcatools/archives/basic_archive.py 288-334, entity_store.py 486-502, 579-584, implementations/index.py 57-76 | regular expressions as a parameter |
| charts | Chart*, QcLra | antelope_reports/charts/{waterfall,pos_neg,combi,base}.py, lcatools/lcia_results.py 727-748 | texts, ticks, figure geometry not modelled |
| background manager | BgFg* | antelope_background/engine/{background_manager.py,tarjan_stack.py 163-195,background_engine.py 325-339, 445-512} | solver as a specification; show not modelled |
| EcoSpold v1 | Eco* | antelope_catalog/providers/ecospold.py | XML parsing, descriptive fields, remote and directory stores not modelled |
| openLCA JSON-LD | Olca* | antelope_catalog/providers/openlca_jsonld.py | JSON parsing, descriptive fields, categories, directory stores not modelled |
| EcoSpold 2 | Es2* | antelope_catalog/providers/ecospold2/ecospold2.py | XML and file-name parsing, flow and quantity details, LCIA score values, descriptive fields not modelled |
| ILCD | Ilcd* | antelope_catalog/providers/ilcd/ilcd.py, ilcd_lcia.py | XML and path parsing, upstream archives, metadata not modelled |
| File stores | File* | antelope_catalog/providers/file_store.py | regular expressions other than the dot, internal prefix of remote and directory stores, file system errors other than those named not modelled |
| TRACI | Traci* | antelope_catalog/providers/traci/*.py, xl_dict.py | header order of the sheet, texts float() or int() could parse, upstream, external mass quantity, quantity entities other than that they raise |
| ecoinvent LCIA | EiLcia* | antelope_catalog/providers/ecoinvent_lcia.py | reading of the workbook, uuid3 collisions, numerals stored as text, notes and comments, mass quantity |
| descendants | Desc* | lcatools/archives/entity_store.py:40-62, 304-364 | crashes while writing, directories, the JSON of the entities (C111), catalog resources of descendants |
| ecoinvent spreadsheet | EiSheet* | antelope_catalog/providers/ecoinvent_spreadsheet.py:238-421, lcatools/entities/entities.py:216-217 | reading the workbook, properties of quantities, fg/bg/lcia data of the provider |
| allocation grid | AllocGrid* | antelope_reports/tables/allocation.py:1-134, base.py | number formatting, Excel |
| catalog files | CatSrc* | antelope_catalog/catalog/catalog.py:60-165, 291-410, 600-622 (with lc_resolver.py, lc_resource.py) | links and spellings of paths, loading of archives, configure_resource |
| menus | Interact* | lcatools/interact.py:28-348, 383-392 | what is printed, parse_math, pick_compartment, group displays, non-ASCII letters, comparison of keys other than texts (one class of uncomparable keys) |
| tag counts | Tag* | lcatools/tools.py:47-88 | printing, gz_files, split_nick, count_ref_flows, regular expressions of a search, code points above 255 |
| text blocks | Block* | antelope_catalog/providers/xml_widgets.py:42-71 | XML parsing, find_tag(s), texts read as numbers, missing attributes |
| tag search | XmlTag* | antelope_catalog/providers/xml_widgets.py:15-39 | XML parsing, wildcards, comments, regular expressions in data types |
| index files | JarProps3 | archives/archive_index.py | the file names and the choice of a new reference for the index are not modelled |
Not modelled: data providers (Ecospold, ILCD, OpenLCA, GaBi, Traci parsers), HTTP/antelope client, tables and charts, the interactive editor,
authorization, float rounding, OS file semantics below whole-file writes, hash collisions, JSON text encoding, threads (the code has none).

## Plan per property

| id | modelled | proof |
|---|---|---|
| C01 | SynList state machine | invariant by induction on operation lists |
| C02 | same, outcomes with state-after | refutation for add_synonym (`_new_term` inserts first); positive for add_set/merge/known-conflict outcomes |
| C03 | add_set, _new_set, _merge_set_with_index | characterisation of resulting sets/dict against a spec |
| C04 | merge/_merge | equivalence-closure spec; refutation for self-merge |
| C05 | serialize/from_json | fold invariant; up to renumbering of dead items |
| C06 | split_term | refutation, plus exact description of what it does |
| C07 | are_synonyms/_sanitize | direct |
| C08 | cas_regex, pad_cas, trim_cas on strings | regex as decidable grammar; termination measure; normal forms |
| C09 | Flowables over SynList | invariant by induction on operation lists |
| C10 | find_cas/check_cas | characterisation |
| C11 | Compartment tree, _crawl_compartments with shared mutable clist and iteration order | soundness (path matching) + refutation of completeness/order independence |
| C12 | add_sub/add_subs/from_json/set/unset_elementary | tree induction; refutation for unset |
| C13 | serialize/from_json on trees | tree induction |
| C14 | _merge_sub/merge_subs/collapse/uproot/known | tree induction |
| C15 | AutoRange | bounds over exact rationals + unit bookkeeping; refutation for metre |
| C16-C22 | lcia_results object graph as nested inductive results | induction over nesting / operation lists; refutations |
| C23-C29 | process with exchanges (value, value_dict, is_ref, alloc state) | invariants on operation lists; refutations for stale alloc sum and JSON |
| C30-C33 | background engine traversal as explicit recursion on a finite graph with Tarjan stack | full Tarjan correctness by invariant; closure; topological order |
| C34 | compute_bg_lci over Qc vectors | loop invariant |
| C35,C36 | incremental add_ref_product / rollback | refutation with witness database + positive single-batch theorem |
| C37 | terminate | case analysis against decision-table spec |
| C38-C45 | fragment trees, traversal, balance, group_ios, scenarios, terminate, parent links | structural induction / invariants |
| C46-C48 | entity store | invariant + refinement to map |
| C49 | LowerDict | refinement to map keyed by lower-case strings |
| C50-C52 | Characterization / LcFlow conversion | algebra over Qc |
| C53-C56 | resource files & resolver with crash points | refinement, prefix crash semantics; refutations |
| C57-C59 | directions, entity eq/hash, qdb.do_lcia | finite case analysis; refutation + guarded theorem |
| C60,C61 | Flowables lookups after any history | invariant by induction; refutation for merges and spellings |
| C62,C63,C64 | LCIA collections, traversal_to_lcia, null results | list induction, induction over nesting |
| C65 | LcProcess.inventory | characterisation of the yielded list; conservation sum |
| C66,C67 | net output, material balance of the background engine | sums over the database; refutation for treatment references |
| C68 | find_matching and its lookup cache | refinement to a fresh manager; refutation where the cache leaks |
| C69 | EntityStore/BasicArchive registry round trip | fold over the file entries in any order |
| C70 | LcEntity.merge | key-wise characterisation |
| C71 | LcFlow reference quantity | invariant over histories; refutation |
| C72 | entity/reference equality | case analysis; refutation |
| C73 | LcQuantity.convert, local units | algebra over Qc |
| C74 | Qdb.convert | provenance specification over the database, any set order |
| C75-C77 | add_term of SynList/Flowables | characterisation over reachable states |
| C78,C79 | fragment traversal amounts, balance flows; a specification of traversals as trees of entries (FragTreeProps.v) | induction over the traversal (every returned list is a permutation of a specified tree); invariant over histories |
| C80,C81 | flat background queries | cells of the matrices = amounts of the database (from C30-C33), columns and rows enumerated |
| C82 | flat background lci | Neumann rounds at database level; balance with the round left out; monotonicity |
| C83 | matrix and index files | round trip; list of disk states; refutation of overwriting |
| C84 | foreground() | breadth first search invariant, fuel = number of foreground products |
| C85 | is_in_scc, is_in_background | from C30 |
| C86 | interpose, _fork_fragment, transfer_evs, to_foreground, set_parent | effect of each step on the heap; for all trees: the branch is counted twice |
| C87 | split_subfragment and traversals before/after | simulation of traversals by induction on fuel; linearity for the unit inventory |
| C88 | observe(accept_all) and traversals | values of the tree and traversal agreement by induction |
| C89 | clone_fragment and traversals | copy of every node by induction on the tree (CloneProofs), traversal of a renamed copy (TravCopy) |
| C90 | save_fragments, _load_fragments, serialize, from_json as in FgModel | invariants of the two loading passes (FgProofs), walk of the trees (FgTree), directory (FgDisk), traversals of equal heaps (FgTrav) |
| C91 | the states of the directory during save_fragments | each is a mixture of both states (FgDisk, FgMix), to which C90's lemma applies |
| C92 | resolver, archives by resource, the stable sort by (not loaded static, priority, not exact), the loops of _perform_query | the first of the stable sort that stops is the minimum in a stable order (find_best); induction over the loops |
| C93 | lookup, then query and get on the origin found | the candidates of the narrower origin are a sublist; loading changes only the ranks of resources passed over and of the one found, which stays first |
| C94 | histories of lookup, get, fetch and resolver changes | invariants over histories: what is loaded only grows, cached answers stay |
| C95 | create_forest, _new_node, find_or_create_term, has_child, split_subfragment over a heap of fragments | invariant of the loop over exchanges done; covered depth grows by one per pass |
| C96 | objects, _entities, _ext_ref_mapping, _uuid_map, _ents_by_type under add and name_fragment; set order and to_uuid arbitrary | coherence invariant over histories |
| C97 | del_orphans, _del_f on reachable archives | from the invariant: no uuid is a key |
| C98 | the traversal of FragModel.v | simulation between two models that differ in descend flags, by induction on the depth of the traversal |
| C99 | frag_flow_lcia, unit scores, null-score cache over traversals | induction on the nesting of aggregated nodes, with the traversal shown to produce well-formed entries |
| C100 | PrivacyDeclaration as base level and policy mapping | case analysis; fold over the keyword arguments |
| C101 | CatalogServer as live publications and a directory of files | invariant relating state and intended publications over all histories |
| C102 | archive as processes (ProcModel), characterizations and index; apply_config as four phases | invariant between first and second run of each phase, induction over the options |
| C103 | resource as stored configuration and archive | both runs described by the sets of references set and unset |
| C104 | termination index as a set of entries | membership and duplicate-freeness of the index |
| C105 | archive of ConfModel with its flows; generators as lists | from the specification of _gen_exchanges (C17 model) |
| C106 | as C105 | algebra over the normalised inventory |
| C107 | as C105, termination index of C104; arguments as an inductive type | from C104 and find_cases |
| C108 | reference as its dictionary, resources as what they hold; LowerDict of C49 | invariant: the reference's entries are the entity's |
| C109 | reference as dictionary of characterizations (FlowModel), source as a flow | invariant over histories of cf and profile |
| C110 | reference as process, references and default; queries of InvModel | induction over the defaults set; find_cases |
| C111 | archive as lists of entities (LowerModel properties, FlowModel flows, ProcModel processes), JSON as records | induction over the lists in sorted order; C29_round_trip_partial for each process; loading depends on factors pointwise |
| C112 | as C111, written without exchanges, characterizations and values | induction over the lists; only references survive [filter], loading stores them without values, allocation by the saved quantity sums nothing |
| C113 | items, rows, notes and columns abstract; grid items as records; the loop that looks for a free key with fuel | invariant of add_column over all columns; reading back the headings by induction; partition of the items by row; the fuel suffices (pigeonhole) |
| C114 | flows as the five properties read; Flowables as in C9-C11; the orders of sets arbitrary | invariant tying keys, items, CAS numbers and synonyms to the processed flows; one uniform step for new item, extension and merge; classes by induction on chains |
| C115 | properties as trees of texts; re.search as a parameter that may reject a pattern; generators as a list and an exception | induction over keyword arguments and entities; the matching relation is stated with String.concat and Forall2 |
| C116 | the data of a chart as rectangles and markers over exact rationals; the shared style dicts as a list of colours threaded through the panels; colour fading as a parameter | induction over data and panels; running sums; linear arithmetic over Qc (QcLra.v) |
| C117 | component search of one product (fuel), stable sort, per-product matrices as entry lists, the linear solver as a specified parameter, the reports of the manager on the engine of BgModel | invariants of the queue, permutations of entries, Neumann series of a triangular matrix, balance of the truncated rounds |
| C118 | the store of entities by key, unit conversion by table or prompt, extraction of exchanges, processes via ProcModel, histories of get/load_all with errors | unit sizes as specification, invariant over histories, simulation of the flow list by the exchanges, totality under a clean-archive predicate |
| C119 | files as records, archive of quantities/flows/processes, creation on demand, units, exchanges and references via ProcModel, allocation quantities, histories with errors | loop invariant of the allocation factors (characterized value = stated factor), partition formula, monotone histories with disjoint allocation quantities |
| C120 | parsed datasets by activity and product, extraction of exchanges, ProcModel processes, get/load_all/retrieve_lcia_scores histories with errors | per-reference invariant (what is recorded under a reference is its dataset), kept by every later call; totals invariant and idempotent re-import for unlinked datasets |
| C121 | unit groups, flow properties, flows, processes (ProcModel), methods and factors in one archive with histories and errors | totals invariant for the exchanges; per flow and method, what is recorded is the fold of a prefix of the factors of that flow (absorbing), complete after a pass and kept by every later call |
| C122 | names as character lists, posix split and join, prefix handling and listing; web cache on disk with directories, an arbitrary time-varying server, histories | path lemmas and an exact characterisation of listing; disk invariant (each file is an answer for its address, never a directory) over all histories |
| C123 | CAS numbers as digit lists, the 25 columns, rows of cells, flows by key, load_all with partial effects, the four queries with the flows they create, histories | decimal printing lemma; key injectivity (no comma in a compartment); lookups after any history refine first-row semantics |
| C124 | flow and method columns, cells, the archive by joined keys, one row with its partial effects, load_all and repeated calls | snoc induction: invariant of the archive after the rows so far; first bad row splits the sheet; idempotence of the failing state |
| C125 | references as strings with dots and date suffixes, the clock as digits, the registry of StoreModel, load_all outcomes, files with names, dataReference and entities | suffix lemmas for the date pattern; induction over descents; registry lemmas of C47/C69, generalised to a reference given when reading |
| C126 | sheets as lists of rows; quantities, flows with their LowerDict of properties (LowerModel), processes with exchanges and references; any number of load_all calls | invariant over the history of rows (the flow is the fold of its rows; entries of update stay beside those of item assignment); absorption of repeated rows |
| C127 | the grid as a table of items (TableModel, C113); processes as inventories and references, and the process of C23-C29 as one of them | refinement to the generic table (one column of items per inventory); sums by buckets; exchange of the sums over references and exchanges, with C24 |
| C128 | the catalog's resolver (ResModel) with the files beside it, named by absolute paths, and the archives held by resource objects; indices, bytes and digests as parameters | string lemmas on localised paths; exact footprint of a deletion; the catalog refines the list of registered resources of C56 over every history, with an invariant on the index file and its resources |
| C129 | the functions of interact.py as functions from the lines typed to an answer and the lines left, or an exception; int() , texts and tags of entities as parameters | induction on the lines; sorted runs are the classes of the key (stability of the sort); narrowing by filters composed; reachability by exhibiting the lines |
| C130 | the regular expression as a left-to-right scanner, tags as a list without doubles, counters as dictionaries; a search is any test on tags | induction on texts: one equation per delimiter determines the parts; counting lemmas over histories of updates |
| C131 | the two substitutions as left-to-right scanners and the % formatting as an automaton, so that a stray percent sign would be an exception | induction on texts: a reference and a character at the front, no reference straddles another; the two equations determine the result |
| C132 | elements as trees, the search as a filter over the preorder | induction on trees: the preorder lists each path once, in lexicographic order |

No property is considered inexpressible.  What the model cannot show (float rounding, OS behaviour, hash seeds, JSON text
encoding) is listed in the trusted base.  The precise guards of the `_partial` theorems are in the `note` of each claim in MANIFEST.json.

## Trusted base

* Coq 8.16.1 kernel (and its `vm_compute` conversion).
* Axioms: `Print Assumptions` of every theorem in MANIFEST.json says "Closed under the global context": none are used, neither of the standard library nor others.
* No functors, module types, `Declare Module`, axioms, `Admitted`, or disabled kernel checks in `rocq/theories`.
* The transcription of the Python into Gallina, by reading, cited definition by definition; the simplifications listed above and in each definition's comment.
* Idealisations: exact rationals for floats; whole-file atomic writes except where crash points are explicit; injective string hashes.
