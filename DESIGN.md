# Formal model of gemd-python in Rocq (Coq 8.16.1)

The model lives in `rocq/theories`. Each area has

* `XModel.v`      – Gallina definitions mirroring the Python, each citing file and lines in `/repo`;
* `XSpec.v`       – a small specification in terms of the English property, which does not use the model's helpers;
* `XProofs.v`     – lemmas;
* `XProperties.v` – the theorems, a concrete `Example` meeting the hypotheses of each, and `Print Assumptions`.

Conventions: Python exceptions are values (`res A := Ok a | Err e`, with the state returned on both
branches wherever a failing call can leave the object modified). Loops the code cannot obviously
finish carry fuel; running out of fuel is a distinct result and theorems show that it does not occur.
Where the full property is false of the code, the guarded version carries the suffix `_partial`
and a theorem `..._refuted` gives the counterexample.

## Plan per property

| id | modelled | proof |
|----|----------|-------|
| C01, C02 | `CaseInsensitiveDict` as the pair (insertion-ordered table, lower-case table) with every overridden method; the lower-casing function is a parameter | refinement to an ordered association list keyed on the lower-cased key, by induction over operation histories; `update` with two arguments clashing with each other is a counterexample to C02 |
| C03, C04 | `ValidList` methods with an arbitrary `isinstance` relation and trigger | invariant over histories; failing cases by case analysis; one-shot iterables are a counterexample |
| C05–C08 | the five bounds classes and the eleven value classes | invariants over assignment histories; `contains` against the set of admitted points; union as least upper bound |
| C09 | `RealBounds` over an affine unit system (dimension, positive rational scale, rational offset), exact arithmetic | monotone bijection argument |
| C10–C13 | attribute setters, template setters, template check generator, quantities, at the three levels | invariant over histories; FATAL absolute quantity is a counterexample |
| C14 | a small program language of level settings, `with` blocks and exceptions | induction on programs; exceptional exit is a counterexample |
| C15–C17 | heap of entities with the bidirectional setters | invariant over assignment histories; double ownership, removal by equality and TypeError after clearing are counterexamples |
| C18, C19, C40 | uids (the setter's keyword call of `CaseInsensitiveDict` is `KeywordModel.v`), links, `set_uuids` | case analysis and traversal induction |
| C20–C23 | stack traversals, flatten, substitution over a heap of entities with nested container values | termination measure, reachability invariant, sort-order lemma |
| C24, C25 | JSON trees, `dumps`, `loads`, `_load_and_index` | simulation between the original heap and the heap being rebuilt |
| C26, C27 | `_cached_equals` with its memo, link equality | termination measure on unseen pairs; reflexivity; asymmetry counterexample |
| C28 | `make_instance` with its memo | homomorphism invariant |
| C29 | `all_dependencies` | case analysis per type |
| C30–C34 | enumerations, InChI, formulas, distributions, type registry | string induction, invariants |
| C35 | memo tables with LRU eviction around an arbitrary registry | coherence invariant |
| C36 | mangling and unmangling of scaling factors, token blocks | string induction |
| C37 | builders over the heap model | case analysis |
| C38 | as_dict/from_dict on value trees | structural induction |
| C39 | the comparison and exit code | case analysis |

What cannot be expressed: the behaviour of pint itself (unit grammar, registry files), of `uuid4`,
and of logging handlers. They appear as parameters or are replaced by
the trees/values they produce. Threads are outside the model.

## Rows added since the plan

| id | modelled | proof |
|----|----------|-------|
| C41 | `make_index`, `_substitute_inplace`, `substitute_links(inplace=True)`, `substitute_objects(inplace=True)` over the heap (`InPlaceModel.v`) | the two passes are run in lockstep; the table of replaced things is related to the index by an invariant; the setters are replayed on both sides of every reference |
| C42 | `substitute_objects` without `inplace`, which rebuilds through `as_dict`/`build` | frame lemma by induction on fuel: all writes go to addresses that did not exist |
| C43 | slice assignment and deletion, `remove`, `pop` of a `ValidList` (`SliceModel.v`): CPython's slice arithmetic over integers | the selected positions characterised by membership; refinement to "the members replace exactly the selected positions" |
| C44 | names, labels and templates as runs show them (`ViewModel.v`), on top of the graph of C15-C17 | invariants over histories: reference classes, types of names; the stored name agrees with the shown one at the step that lets a spec go |
| C45 | thin_dumps, copy and complete_material_history (`ThinModel.v`), on the serialisation of C21-C25 | a copy of a well-formed entity is well formed (transfer along the correspondence of references); composition of the round trips; after the first step all uids are set, so the steps of the history leave the heap alone |
| C46 | `__repr__`, `_name_repr` (`ReprModel.v`) over the graph histories of C44, and raw_dumps of `SerialModel.v` | assignable sides go to classes of lower rank (invariant over histories), so nesting is bounded by the rank; the tree satisfies an inductive relation written from the English claim; frame theorem by induction on the depth |
| C47 | `decode` of `SerialModel.v` on any text, with arbitrary constructors; sessions (`LoadAnySpec.v`) interleave loads with the graph operations of C15-C17 | induction on the text: each step makes a new object and assigns its references once, only to objects made since the loading began; the invariants of C15-C17 survive such steps |
| C48 | `raw_dumps` (`encode_nested`) and `raw_loads` (`decode` without substitution) of `SerialModel.v` on nested entities | induction on the rank of the class, which every field except the read-only ones lowers; inside, on the value; copies are related step-indexed and then closed into a simulation (`NestProofs.v`); sharing by induction on the text (`NestShare.v`) |
| C49 | the setters of two-sided references in `GraphModel.v` (`set_process`, `set_owned`) | exact effect of one assignment by cases against the records of `AssignSpec.v`; list lengths by an invariant over histories that follows the number of referring objects; the stuck state by a second invariant (`AssignProofs.v`) |
| C50 | `CidModel.v` with the inherited `setdefault` and `d.__ior__` (`ior`) | refinement to `CidFullSpec.v` (stored pairs and visible keys), one step at a time, then induction on the history (`CidFullProofs.v`) |
| C51 | `BoundsModel.v` (unchanged) | failure cases as relations in `BoundsFullSpec.v` (`no_content`, `first_fault`); induction on the arguments (`BoundsFullProofs.v`) |
| C52 | `ValuesModel.v` with aliases, `TextModel.v` (names, `migrated_enum`) | relations in `TextSpec.v` (`first_reading`, `declares`, `replaced`, `inchi_of`, `sum_is`, `assigned`) shown equal to the functions (`TextProofs.v`) |
| C53 | as C10, C11, C13, C14 | verdicts are relations in `ValidFullSpec.v` (`judged`, `attr_verdict`, `object_verdict`, `all_verdicts`, `quantity_does`, `intended`) shown equal to the functions; histories by induction |
| C54 | the part of Python's `re` the code uses, as a backtracking matcher (`ReModel.v`); `extract_version`, `formula_clean`, `formula_latex` | the patterns of the source are written out in `ReSpec.v`; the loops of the unit model are shown equal to the matcher on them (shorter repetitions and other alternatives cannot succeed), and the outcomes of cleaning, markup and version search are relations over positions of the text |
| C55 | as for C38 (`DictModel.v`) | `DictFullSpec.v` writes one rule per kind of field as a relation between the argument, what the fields read, what is stored and what is raised; every setter is shown to follow its rule from every reachable object, the rules are shown functional, and the constructors are shown to apply them in order |
| C56 | the setters of the attribute template lists, with one-shot iterables (`TmplModel.v`, rest as for C12) | `TmplSpec.v` says what stands for which entries and what each entry records or raises; the setter and append are shown to follow it by induction over the list, and the relations are shown functional |
| C57 | the loops of recursive_foreach and recursive_flatmap with the function they call, its state and its exceptions; set_uuids (`TravFullModel.v`; pushing and hashing as for C20) | a fuel-free relation for the loop; invariants say where everything on the stack comes from and that nothing is left out; the loop with the function is shown to follow the relation up to the first exception; the stack splits into parts for the order of lists |
| C58 | make_value, add_edge and add_attribute as for C37 (`BuildModel.v`) | inductive rules for the value and the exception (`BuildFullSpec.v`), proved complete and free of choice; case analysis over the class of the input |
| C59 | RealBounds, UniformReal, NormalReal and DiscreteCategorical over Python's integers and IEEE doubles (`FloatModel.v`, Flocq's `binary_float 53 1024`); a conversion is any list of arithmetic steps | doubles with the infinities are embedded in the reals; each operation is the clamped rounded exact one, hence monotone; histories and loops by induction; the error of the sum by induction with the total so far (`FloatProofs.v`, `FloatProperties.v`, `FloatValues.v`) |
| C60 | tokenizer, `_scaling_find_blocks`, `_scaling_identify_factors`, `_scaling_preprocessor` (`ScaleModel.v`) against a separate grammar of tokens, factors and verdicts (`LexSpec.v`) | maximal munch by strong induction on the text and uniqueness of the reading; the operator stack as powers over an open parenthesis, by induction on nested groups; verdicts by cases on what stands before the first power, sound and total (`LexProofs.v`, `LexTokens.v`, `LexBlocks.v`, `LexFactors.v`, `LexProperties.v`) |
| C61 | attributes, values, bounds, templates, object templates and objects as cells with addresses, setters and list operations on them, the checks of C53 on what the cells hold (`ShareModel.v`); agreement, admission and what an operation touches (`ShareSpec.v`) | frame lemmas per operation for attribute and for rules, lifted to histories by induction; origin of list members by reverse induction over the history with the trigger invariant of C09 (`ShareProofs.v`, `ShareProperties.v`) |
| C62 | the writer (strings, numbers, arrays, objects, indent, separators, ensure_ascii) and the reader of Python's json over code points (`JtextModel.v`), the text functions on top of the trees of `SerialModel.v` (`JtextTree.v`); the grammar and its meaning (`JtextSpec.v`) | the reader is sound by induction on its fuel and complete by induction on derivations, with enough fuel in the length of the text; the writer produces derivations, by induction on trees (`JtextProofs.v`, `JtextProperties.v`) |
| C63 | files as texts with a position, dump, load, a write that stops after any number of characters, DictSerializable.dump (`FileModel.v`) | every proper prefix of the text of an object is refused by the reader, from the shape of derivations (`FileProperties.v`) |
| C64 | minimal_subset, the templates, make_strehlow_objects, make_strehlow_table and make_display_table (`SacModel.v`), over the formula functions of `ReModel.v`; what a table should show (`SacSpec.v`) | each function refined to its relation, in both directions, by induction on rows; the pipeline by composing the relations (`SacProofs.v`, `SacProperties.v`) |
| C65 | str.split, _parse_value, ingest_material_run and ingest_table (`IngestModel.v`); the words of a text, what a field, an experiment and a dictionary are read as (`IngestSpec.v`) | splitting by induction on the text against the relation of words; reading refined to its relation in both directions; the dictionary and list cases by induction on the data (`IngestProperties.v`) |
| C66 | the scopes, how make_cake gives runs their particulars, its searches by name and uids, and the flexural tests (`CakeModel.v`); what runs should hold (`CakeSpec.v`) | one object by cases, all by induction on the traversal with the other objects untouched; the searches by mutual induction on the history; the numbers by linear arithmetic (`CakeProperties.v`) |
| C67 | threads whose steps are the reads and writes of the level (`ThreadModel.v`); a program on its own, and when blocks overlap (`ThreadSpec.v`) | what a thread has seen and will still see is invariant under its own steps; the levels in use by an invariant over variable, stacks and programs; restoring by an invariant on the bottom of the owner's stack (`ThreadProperties.v`) |
| C68 | the steps of change_definitions_file and of the cached calls on registry, caches and working directory, interleaved (`RaceModel.v`); when they overlap, and which file should be in force (`RaceSpec.v`) | invariants of the shared state and of every thread's place, by cases on the step; findings by concrete schedules (`RaceProperties.v`) |
| C69 | the reads and writes of the setters of ingredient.process, measurement.material and material.process, and of list.remove item by item, interleaved (`WeaveModel.v`); when the two sides agree, what was assigned last (`WeaveSpec.v`) | invariants: how often a child is in every list according to where its thread is; which processes point to a material; what a search has passed; findings by concrete schedules (`WeaveProperties.v`) |
| C70 | the setters of plain fields for all 18 classes, validate_list with one-shot iterators as state, the order of assignments in constructors, programs (`MetaModel.v`); what a field takes and may hold (`MetaSpec.v`) | case analysis per setter, induction on programs and on the fields of a constructor (`MetaProperties.v`) |
| C71 | lists of tags and labels as objects with addresses, ingredient specs and runs that hold them, variables, programs (`AliasModel.v`); what is seen, as values (`AliasSpec.v`) | invariant over all programs that no list has two owners; then what each operation changes, by framing; a list without an owner never gets one again (`AliasProperties.v`) |

What each area turned into, beyond the plan above:

* `FlattenProperties`, `SubstProperties`, `LoadProperties`, `LoadLinkProperties`, `RoundTripProperties` (C21–C25) share `SerialModel.v`. The round trip is a simulation between the heap written and the heap rebuilt; loading is also proved equal to a relation (`reads`) that has no index and no fuel.
* `EqProperties` (C26) proves that the memoised recursion finishes on every graph, without a fuel bound being visible in the statement.
* `CacheProperties` (C35) quantify over all histories of calls, all cache capacities and all definition files.
* `DepsProperties`, `InstProperties`, `BuildProperties` (C29, C28, C37) are stated both for every heap in a shape invariant and for every history of constructor calls and assignments, which reach only such heaps.

## Trusted base

1. **Coq 8.16.1's kernel** (`vo` compilation; no `-type-in-type`, no `Unset Guard Checking`, no plugin other than those of the standard distribution).
2. **Axioms.** Each `*Properties.v` has `Print Assumptions` for each of its theorems; each prints *Closed under the global context*, except those of C59 (`FloatProperties.v`, `FloatValues.v`), which reason about doubles with Flocq and Coq's real numbers. These rest on the standard library's axioms `ClassicalDedekindReals.sig_forall_dec`, `ClassicalDedekindReals.sig_not_dec`, `FunctionalExtensionality.functional_extensionality_dep` and `Classical_Prop.classic`; Flocq adds none. No other theorem depends on an axiom. The seven entries `Coq.ssr.ssrunder.Under_rel.*` that a whole-library listing (`coqchk -o`) shows are the module-type parameters of Coq's own ssreflect prelude, and the nineteen `Coq.Reals.Rdefinitions.RbaseSymbolsImpl.*` and `RinvImpl.*` are the components of sealed modules of the standard library, which are defined there and not assumed; the theorems outside C59 use neither.
3. **Fidelity of the model.** Read from the sources, not executed. Every definition cites the lines it models. What was simplified is in the comment at the head of each model file and repeated below.

### Parameters the theorems are universally quantified over

They are Section variables, i.e. arguments of the closed theorems, not assumptions of the development.

| parameter | stands for | what is assumed of it |
|-----------|-----------|------------------------|
| `lower` | `str.lower` | nothing (idempotence where a theorem states it as a hypothesis) |
| `instance_of`, `trigger` | `isinstance`, the trigger of a `ValidList` | nothing |
| `eq` (GraphModel) | `==` used by `list.remove` | reflexive where stated; the real `==` (EqModel) in `*_real_*` theorems |
| `sorted` | the order in which Python lists a dictionary's or set's names | a permutation, where stated |
| `uuid4` | fresh identifiers | distinct from each other and from those present, where stated |
| `construct`, `known`, `refuses`, `rejects`, `attribute` | what constructors do with arguments that are not references | stated per theorem (`accepts`-like hypotheses), shown satisfiable by an `Example` |
| `engine` with `pint_ok` (CacheSpec) | pint's registry | the laws listed in `CacheSpec.v` (answers depend only on the names a text or unit uses; `==` on units and numbers is sane); `small_ok` builds a concrete engine that satisfies them |
| `units`, `check` (DictModel) | the text pint shows for a unit; whether a template accepts a value | nothing, or stability of the shown text where stated |

### Modelled, and not, per source file

| file | modelled | not modelled |
|------|----------|--------------|
| `entity/case_insensitive_dict.py` | all | keys that are not strings |
| `entity/valid_list.py`, `entity/setters.py` | all methods, slices included; `validate_list`, `validate_str` | `sort`, `reverse`, `copy` (inherited, no new elements) |
| `entity/bounds/*.py` | constructors, setters, `contains`, `union`, `update`, `validate` | unit parsing by pint; rounding is modelled for C59 only, exact rationals elsewhere |
| `entity/value/*.py` | constructors, setters, `_to_bounds` | InChI and SMILES chemistry; rounding except for C59 |
| `enumeration/*.py` | class creation, `from_str`, `get_value`/`get_enum`, synonyms | pickling |
| `entity/bounds_validation.py` | levels, `raise_or_warn`, the context manager | logger handlers |
| `entity/attribute/*.py`, `entity/template/*.py`, `object/has_*.py` | setters and checks; changes to attributes, values, bounds and templates that are shared or already in a list (C61) | several attribute lists of one object at once in C61 |
| `entity/object/*.py` | constructors, two-sided setters, names and labels, derived properties that follow references | docstrings |
| `entity/base_entity.py`, `entity/link_by_uid.py` | uids, tags, links, `==`, hash, `all_dependencies` | recursion limit |
| `entity/dict_serializable.py` | registry metaclass, `from_dict`, `as_dict`, `build`, `dump`, `==`, `__repr__` as a tree | the characters `str` writes |
| `entity/util.py` | `make_instance`, `complete_material_history` | `array_like` |
| `json/*.py` | `dumps`, `loads`, `raw_dumps`, `raw_loads`, `thin_dumps`, `copy`, encoder, `_load_and_index` | the texts of floats (a parameter), Python's recursion and digit limits |
| `util/impl.py` | `set_uuids`, `flatten`, `substitute_*`, `make_index`, `recursive_*`, `writable_sort_order` | `cached_isinstance`'s cache |
| `builders/impl.py` | all | — |
| `units/impl.py` | preprocessors, display, the caches, `change_definitions_file` | pint; deployment of the default files |
| `scripts/validate_version_bump.py` | the comparison | git, reading files |
| `gemd/demo`, docs | — | examples only, no property claimed |

## Findings

Places where the code does not do what the English property says. Each is a theorem with a concrete witness.

| finding | theorem |
|---------|---------|
| an update that names one key in two casings raises and still changes the dictionary | `cid_update_atomic_refuted` |
| inherited `setdefault` stores keys lookups do not see | `cid_setdefault_refuted` |
| a one-shot iterable is used up by the type check; a `ValidList` built from it is empty | `vl_one_shot_refuted` |
| `+=` on a `ValidList` stores anything | `vl_iadd_refuted` |
| a [template, bounds] pair assigned to a slice of a template list stores its members one by one | `slice_types_refuted` |
| the records of complete_material_history cannot be loaded as a context: a material's comes before its process's, so the link between them stays a link | `history_rehydrates_refuted` |
| notes are stored unchecked; with an object as its own notes (or an entity of the same or a higher rank inside them) `repr` and raw_dumps do not end normally | `repr_self_refuted` |
| `loads` accepts a text in which two materials link to the same process: both have it, and it names only the last as its output | `loaded_claims_refuted` |
| `raw_dumps` followed by `raw_loads` duplicates shared entities: a material and an ingredient with one process come back with a process each, and only one of these has the material as output (`dumps`/`loads` keep the sharing: C24) | `raw_round_trip_splits`, `ex_raw_round_trip` |
| A rejected assignment to a listed object makes its reference unassignable: `m.material = 'powder'` raises a TypeError but has taken `m` off the list, so every later assignment, also of None or of the material it still shows, raises a ValueError | `rejected_then_stuck_refuted`, `unlisted_for_good` |
| Keys stored by the inherited `setdefault` or `d.__ior__` are hidden from lookups; deleting such a key, or popping it as the last item, raises a KeyError although it is removed; popping a hidden key hides a visible key of another casing | `cid_raises_late_refuted`, `cid_full_ex` |
| `migrated_enum` documents that new_value may be the name of the new symbol; a name that is no spelling of a member raises ValueError | `migrated_symbol_refuted` |
| Two members declared with one value that has white space at an end become one, without an error; the synonyms of the second are lost | `alias_loses_synonyms_refuted` |
| run.labels is the list of the spec itself: a label appended through one run appears in the spec and in all its runs, while run.labels cannot be assigned (ingredient_run.py:95-102) | `append_labels_shared`, `labels_through_run_refuted` |
| A generator assigned to tags, file_links, labels, allowed_names or allowed_labels is used up by the type check, and the list is empty without an error (valid_list.py:43-47) | `assign_iterator`, `iterator_lost_refuted` |
| Notes, descriptions and names of templates and attributes are not checked; an attribute template checks its name only in the constructor (attribute_template.py:33-37) | `texts_unchecked_refuted` |
| Two threads that assign one ingredient to two processes can leave it in both lists (ingredient_run.py:124-133) | `child_listed_twice_refuted` |
| Taking two ingredients off one process in two threads can raise ValueError although the item is there (list.remove, ingredient_run.py:128) | `removal_fails_refuted` |
| Detaching a material from a process while another thread attaches a new one leaves the process without output (material_run.py:76-84) | `output_lost_refuted` |
| A unit call in another thread while change_definitions_file runs (caches are cleared before the registry is replaced, impl.py:402-415) is cached with the old definitions and served afterwards; conversions can mix registries | `stale_answer_refuted`, `mixed_answer_refuted` |
| Two overlapping change_definitions_file calls can leave another working directory, load the wrong file or miss one (impl.py:410-422 goes through os.chdir) | `directory_lost_refuted`, `other_file_refuted`, `file_missed_refuted` |
| Blocks of validation_level in two threads that overlap leave the level changed for the process, and a FATAL block can check at IGNORE (bounds_validation.py:42-46 is a global variable) | `level_leaks_refuted`, `strict_block_lax_refuted`, `same_level_refuted`, `set_in_between_refuted` |
| The volume fractions make_cake gives the ingredients are all above those of the specs, so they never add up to one (cake.py:835 subtracts 0.5 from a factor around 1) | `volume_fractions_refuted` |
| make_cake names a procuring process after its material, whose name it changes in the same traversal: the result depends on the order (cake.py:822) | `procuring_name_refuted` |
| A mass fraction above 10/11 can be given bounds above one (cake.py:840-841) | `mass_fraction_refuted` |
| ingest_material_run(data, material_spec) never sets the spec of the run: it assigns the attribute material_spec, which no class knows (material_run_example.py:131-132) | `ingest_spec_refuted` |
| ingest_material_run of a list does not pass the process run on (material_run_example.py:79) | `ingest_process_refuted` |
| A field such as "1.0 g / cm^3", in the spelling of the templates' own default units, is read with the unit cm^3 (material_run_example.py:54) | `unit_with_spaces_refuted` |
| minimal_subset of a table of records (as import_table returns it) looks at the classes of the keys only and keeps one record for each number of keys (strehlow_and_cook.py:56 iterates over the dictionary) | `minimal_subset_records_refuted` |
| Transitions and phases are split into two columns, but a record with both (such as the fourth of the shipped table) loses the second: `seen` is asked for the name before the split (strehlow_and_cook.py:281-292) | `second_transition_lost_refuted` |
| The standard deviation of a band gap in eV is set to the band gap, and the reported uncertainty is never read (strehlow_and_cook.py:215-218) | `band_gap_deviation_refuted` |
| A dump over an older file that stops midway can leave a text that loads as an object that was never dumped (gemd_json.py:127 writes in place) | `stopped_overwrite_refuted` |
| A name made of the two halves of a surrogate pair (a high surrogate directly followed by a low one, which Python allows as two characters) is written and read back as one different character without an error; with `ensure_ascii=False` it is kept (gemd_json.py:55, 164 pass the keyword on) | `split_surrogates_refuted` |
| At FATAL an attribute in the list of an object can leave the range of the object's template without any complaint: by changing its value in place, assigning another value, changing the range, replacing the object's template, or changing that template's list (has_template_check_generator.py:77-89 runs only when an element enters the list) | `listed_stays_admitted_refuted` |
| At FATAL the value of an attribute can leave the bounds of the attribute's own template by changing the value, the bounds or `template.bounds` in place (base_attribute.py:74-102 checks only on assignment to the attribute) | `attribute_stays_in_bounds_refuted` |
| The exponent of `g / m**-(2)` is taken for a scaling factor: the text becomes `g / m**-(_2)` and a unit `_2` is defined, while `g / m**(2)` is left alone (units/impl.py:56-114: the sign ends the exponent context) | `signed_exponent_kept_refuted` |
| `RealBounds(0, 0, 'm').union(RealBounds(0, 29, 'cm'))` does not contain `RealBounds(0, 29, 'cm')`: it ends at 0.29 m, and 0.29 * 100.0 is 28.999999999999996 (real_bounds.py:117-124) | `float_union_contains_refuted` |
| For the same reason bounds written 0 to 0.29 m do not contain 0 to 29 cm, though 0 to 29 cm contain 0 to 0.29 m | `float_written_refuted` |
| `NormalReal(2**53 + 3, 1, '')` and `UniformReal(2**53 + 3, 2**53 + 3, '')` are made, but checking them against any bounds raises ValueError: the lower bound is rounded up before the unrounded upper bound is compared with it (real_bounds.py:44-66) | `float_large_integer_refuted` |
| DiscreteCategorical takes the probabilities 1e16, -1e16, 1 but refuses 1e16, 1, -1e16: the sum depends on the order of the dictionary (discrete_categorical.py:44) | `float_order_refuted` |
| `add_edge(input, output)` where the input is, say, a process run whose spec is a `LinkByUID`: TypeError, but the ingredient spec made on the way stays among the ingredients of the output's process spec (builders/impl.py:149-157) | `add_edge_dangling` |
| `apply_first=False`, documented as applying the function to the members first, still applies it to an entity before its members: they are only queued before the call (impl.py:430-444) | `owner_before_members` |
| Assigning a generator to a template's properties, conditions or parameters empties the list without an error: the test for bounds in it uses it up (has_property_templates.py:61) | `template_generator_lost` |
| integers beyond the float range are refused as bounds | `integer_bounds_any_refuted` |
| a refused `categories` assignment is stored nonetheless | `categories_rejected_unchanged_refuted` |
| units with a negative scale invert `contains` | `contains_negative_scale_refuted` |
| `contains` raises for a value without content | `contains_value_refuted` |
| `UniformReal` can be inverted by assignment | `uniform_real_never_inverted_refuted` |
| enumeration values with outer white space are not recovered and may repeat | `enum_untrimmed_refuted`, `enum_untrimmed_distinct_refuted`, `enum_synonym_refuted` |
| an InChI body that repeats the prefix is altered | `inchi_body_kept_refuted` |
| NaN probabilities pass the normalisation check | `probabilities_nan_refuted` |
| a value cannot be assigned while the template is a link, even at WARNING | `attribute_link_template_refuted`, `object_template_link_refuted` |
| a (template, bounds) pair may name a template of another kind | `template_kind_refuted` |
| at FATAL every absolute quantity is refused | `absolute_quantity_fatal_refuted` |
| the level stays changed if the body of the `with` raises | `validation_level_restored_refuted` |
| giving a process to a second material leaves the first pointing at it | `stolen_process_refuted` |
| refused assignments to two-sided fields leave the sides disagreeing | `rejected_process_refuted`, `rejected_material_refuted` |
| moving the second of two equal siblings takes out the first | `equal_sibling_refuted`, `equal_sibling_real_refuted` |
| `==` is neither symmetric nor transitive, and a copy can be unequal | `symmetric_refuted`, `transitive_refuted`, `copy_unequal_refuted` |
| equality with links is not transitive | `link_transitive_refuted` |
| a tuple that contains a list stops every traversal | `unhashable_tuple_refuted` |
| `flatten` drops entities that share uids | `flatten_drops_refuted` |
| `substitute_*` confuse `1`, `1.0`, `True`, and pairs with links | `substitute_conflates_refuted`, `pair_conflated_refuted`, `link_conflated_refuted`, `numbers_conflated_refuted` |
| links made with another casing are not found again; copies are not shared | `casing_not_restored_refuted`, `copies_not_shared_refuted` |
| dictionaries with a key `"type"` do not round-trip | `load_type_key_refuted` |
| an identifier under the scope `seq` or `self` can be stored with `add_uid`, but the same uids cannot be assigned or written: the setter passes them as keyword arguments to `CaseInsensitiveDict`, whose parameters have these names; an empty identifier under `seq` is lost, and the entity comes back from `loads(dumps(...))` as a link | `set_uids_outcome`, `own_uids_assigned_refuted`, `parameter_scopes_refuted` |
| two records with one uid: links to it become different objects | `links_same_object_refuted` |
| `make_instance` raises on links and mis-mirrors shared processes | `make_instance_link_refuted`, `make_instance_shared_process_refuted` |
| builders modify the graph and then raise; `make_value` ignores the bounds | `add_edge_unmodified_refuted`, `add_measurement_unmodified_refuted`, `make_value_bounds_refuted` |
| scaling factors: display, ambiguity and prefixes | `leading_point_refuted`, `point_and_sign_refuted`, `trailing_point_refuted`, `prefix_refuted`, `prefix_displayed_refuted`, `exponent_unit_refuted`, `group_refuted`, `exponent_power_refuted` |
| unit caches: history, leaked names, stale units, number types | `point_and_sign_history_refuted`, `leaked_name_refuted`, `stale_unit_refuted`, `number_type_refuted` |
| dictionaries: key `"self"`, inverted reals, large integers, categories, changed templates | `self_key_refuted`, `uniform_real_refuted`, `nominal_real_refuted`, `categories_refuted`, `template_changed_refuted` |

## Testing the theorems

`seeded/LOG.jsonl` lists the wrong programs tried against the theorems (one edit of a model definition each) and which theorems stopped proving. Where an edit got through, the line names the theorem that was added or tightened.
