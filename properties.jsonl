{"id": "C01", "title": "Case-insensitive dictionary behaves as one map up to case", "statement": "After any sequence of item assignment, deletion, pop, popitem, clear, copy and update, no two stored keys of a CaseInsensitiveDict are equal up to case; d[k], d.get(k), k in d, del d[k] and d.pop(k) give the answer of an ordinary map keyed on the lower-cased key, whatever casing is used; and iteration shows each key in the casing in which it was first stored.", "quantifier": "every finite history of dictionary operations, every key, every value, every choice of the lower-casing function", "why_tests_cant": "The dictionary keeps two tables that must stay in step; only an invariant over all histories shows that no interleaving makes them disagree.", "anchors": ["gemd/entity/case_insensitive_dict.py: CaseInsensitiveDict.__init__, __getitem__, get, __setitem__, __contains__, __delitem__, clear, pop, popitem, copy, update, _register_key"]}
{"id": "C02", "title": "A rejected dictionary operation changes nothing", "statement": "If an operation on a CaseInsensitiveDict raises, the dictionary (contents, order, and every later lookup) is exactly what it was before the call.", "quantifier": "every reachable dictionary, every operation and argument for which the operation raises", "why_tests_cant": "Failure atomicity ranges over all states and arguments; a test sees one failing call and rarely compares the whole state.", "anchors": ["gemd/entity/case_insensitive_dict.py: __setitem__, update, _register_key, pop, __delitem__"]}
{"id": "C03", "title": "A typed list only ever holds permitted types", "statement": "A ValidList built with a content type contains, after any sequence of index assignment, append, extend and insert, only elements that are instances of the content type (given a trigger that returns nothing or a permitted element), and each stored element is the image of the supplied element under the trigger.", "quantifier": "every content type set, trigger, initial list and finite history of list operations, successful or failing", "why_tests_cant": "Needs an invariant over unbounded histories including failing calls.", "anchors": ["gemd/entity/valid_list.py: ValidList.__init__, _validate, __setitem__, append, extend, insert"]}
{"id": "C04", "title": "A rejected typed-list operation changes nothing", "statement": "If append, extend, insert or index assignment on a ValidList raises TypeError because an element has the wrong type, or because the trigger raised, the list content is unchanged; extend is all-or-nothing.", "quantifier": "every ValidList state, every operation and argument list of any length, every trigger", "why_tests_cant": "All-or-nothing behaviour must hold at every position of the bad element in a list of any length.", "anchors": ["gemd/entity/valid_list.py: append, extend, insert, __setitem__"]}
{"id": "C05", "title": "Bounds and uniform values never become inverted", "statement": "After construction and any sequence of attribute assignments, update calls and rejected assignments, lower_bound <= upper_bound holds for IntegerBounds, RealBounds and UniformInteger; a rejected assignment leaves both bounds as they were.", "quantifier": "every history of assignments of any (including None, non-finite, non-integral) argument", "why_tests_cant": "An invariant over all orders of assignment.", "anchors": ["gemd/entity/bounds/integer_bounds.py: IntegerBounds.lower_bound, upper_bound, update", "gemd/entity/bounds/real_bounds.py: RealBounds.lower_bound, upper_bound, update", "gemd/entity/value/uniform_integer.py: UniformInteger"]}
{"id": "C06", "title": "contains means set inclusion", "statement": "For bounds a and b of the same kind, a.contains(b) holds exactly when every point admitted by b is admitted by a; for different kinds it is False. Hence contains is reflexive and transitive, and mutual containment means the same admitted points.", "quantifier": "all pairs and triples of bounds of every type, with arbitrary endpoints, category sets and component sets, and units of positive scale", "why_tests_cant": "Set inclusion over infinite point sets for all pairs of bounds.", "anchors": ["gemd/entity/bounds/base_bounds.py: contains", "gemd/entity/bounds/integer_bounds.py: contains", "gemd/entity/bounds/real_bounds.py: contains", "gemd/entity/bounds/categorical_bounds.py: contains", "gemd/entity/bounds/composition_bounds.py: contains", "gemd/entity/bounds/molecular_structure_bounds.py: contains"]}
{"id": "C07", "title": "union is the least upper bound and update agrees with it", "statement": "x.union(y1,...,yn) contains x and every yi; any bounds of the same kind (and units) that contain x and every yi contain the union; x.update(...) leaves x equal to the union; the order and repetition of arguments do not change the admitted points.", "quantifier": "all bounds x and all argument lists of any length mixing bounds and values of the same kind", "why_tests_cant": "Quantifies over all argument lists and all upper bounds.", "anchors": ["gemd/entity/bounds/*_bounds.py: union, update"]}
{"id": "C08", "title": "A value is in bounds exactly when everything it can take is", "statement": "bounds.contains(value) is True exactly when every number, category or component the value may take (the nominal, the uniform interval, the mean for a normal distribution, the listed categories or components, the elements of a formula) is admitted by the bounds; values of another kind are never contained.", "quantifier": "all values of all eleven value classes and all bounds", "why_tests_cant": "Ranges over all value/bounds combinations, including every unordered mixture of kinds.", "anchors": ["gemd/entity/value/*.py: _to_bounds", "gemd/entity/bounds/base_bounds.py: contains"]}
{"id": "C09", "title": "Real bounds are independent of the unit used to express them", "statement": "With exact unit arithmetic, expressing either side of contains or union in another compatible unit does not change which quantities are admitted; bounds in units of different dimensionality are never contained (False, no exception) and their union raises; dimensionless contains only dimensionless.", "quantifier": "all real bounds and all pairs of units of an affine unit system (positive scale, arbitrary offset)", "why_tests_cant": "Ranges over all units and endpoints; tests try a handful of conversions.", "anchors": ["gemd/entity/bounds/real_bounds.py: contains, union, update, _convert_bounds", "gemd/units/impl.py: convert_units"]}
{"id": "C10", "title": "Attribute values respect the template bounds under strict validation", "statement": "With the validation level at FATAL throughout, whatever sequence of value and template assignments is made to a Property, Parameter or Condition, an attribute with a value and a template always has its value inside the template bounds; a rejected assignment leaves it unchanged. At IGNORE and WARNING no assignment of a well-typed value or template object is ever rejected, and WARNING logs exactly when FATAL would reject.", "quantifier": "every history of value/template assignments to an attribute, at every level", "why_tests_cant": "Invariant over histories; the check is split over two setters and must be right in every order.", "anchors": ["gemd/entity/attribute/base_attribute.py: BaseAttribute._check, value, template"]}
{"id": "C11", "title": "Object templates constrain attribute lists under strict validation", "statement": "At FATAL, an attribute can enter the conditions, parameters or properties list of an object with a template (by construction, assignment, append, extend, insert or index assignment) only if the object template admits it, i.e. the range recorded for the matching attribute template (or, if none is recorded, that template's own bounds) contains its value; attributes the template does not mention are always accepted; at IGNORE and WARNING none is rejected.", "quantifier": "all object templates, attribute lists and histories of list mutations", "why_tests_cant": "Invariant over histories and over all templates.", "anchors": ["gemd/entity/object/has_template_check_generator.py", "gemd/entity/object/has_conditions.py", "gemd/entity/object/has_parameters.py", "gemd/entity/object/has_properties.py", "gemd/entity/template/has_property_templates.py: validate_property", "gemd/entity/template/has_condition_templates.py: validate_condition", "gemd/entity/template/has_parameter_templates.py: validate_parameter"]}
{"id": "C12", "title": "Template ranges refine the attribute template", "statement": "Every explicit range recorded in an object template's properties, conditions or parameters list lies inside the bounds the attribute template had when the entry was supplied; an entry whose range is not inside is rejected and nothing is recorded.", "quantifier": "all lists of template/bounds pairs in every accepted spelling and all histories of appends", "why_tests_cant": "Ranges over all spellings and list lengths.", "anchors": ["gemd/entity/template/base_template.py: _homogenize_ranges", "gemd/entity/template/has_property_templates.py", "gemd/entity/template/attribute_template.py: bounds"]}
{"id": "C13", "title": "Ingredient quantities are checked at the strict level and only there", "statement": "At FATAL mass, volume and number fractions outside [0,1] or not dimensionless are rejected and the previous value is kept, and every valid quantity is accepted; at WARNING and IGNORE every continuous value is accepted. Valid absolute quantities should be accepted at every level.", "quantifier": "all quantity values, fields, levels and assignment histories", "why_tests_cant": "Ranges over all levels and values; the repository tests never store a valid absolute quantity at FATAL.", "anchors": ["gemd/entity/object/has_quantities.py: HasQuantities._check, mass_fraction, volume_fraction, number_fraction, absolute_quantity"]}
{"id": "C14", "title": "The validation-level context restores the previous level", "statement": "After a `with validation_level(x)` block ends, get_validation_level() is what it was before the block, whatever nested blocks and set_validation_level calls the body makes and however the body ends.", "quantifier": "all programs built from level settings, nested blocks and exceptions", "why_tests_cant": "Quantifies over all nestings and exit paths.", "anchors": ["gemd/entity/bounds_validation.py: validation_level, set_validation_level, get_validation_level"]}
{"id": "C15", "title": "Material and process agree about which produces which", "statement": "After any sequence of material.process assignments in which no process is assigned to a second material while still held by a first, m.process is p exactly when p.output_material is m, for runs and for specs.", "quantifier": "every heap of runs/specs and every finite history of process assignments (including rejected and link assignments)", "why_tests_cant": "Two-sided references must agree after every history.", "anchors": ["gemd/entity/object/material_run.py: MaterialRun.process", "gemd/entity/object/material_spec.py: MaterialSpec.process", "gemd/entity/object/process_run.py: output_material", "gemd/entity/object/process_spec.py: output_material"]}
{"id": "C16", "title": "Ingredient lists and measurement lists mirror the owning references", "statement": "After any history of assignments to ingredient.process (runs, specs) and measurement.material, p.ingredients lists each ingredient whose process is p exactly once and nothing else, and m.measurements likewise, with new entries last.", "quantifier": "every heap and every finite history of assignments", "why_tests_cant": "Two-sided references must agree after every history; removal is by equality, so it depends on the whole list content.", "anchors": ["gemd/entity/object/ingredient_run.py: process", "gemd/entity/object/ingredient_spec.py: process", "gemd/entity/object/measurement_run.py: material", "gemd/entity/object/material_run.py: measurements, _unset_measurement"]}
{"id": "C17", "title": "A rejected reference assignment changes nothing", "statement": "Assigning an object of the wrong type to process, material, spec or template raises TypeError and leaves every object's references as they were.", "quantifier": "all heaps, setters and wrongly typed arguments", "why_tests_cant": "Ranges over all states in which the failing assignment may happen.", "anchors": ["gemd/entity/object/material_run.py: process, spec", "gemd/entity/object/measurement_run.py: material, spec", "gemd/entity/object/ingredient_run.py: process, material, spec", "gemd/entity/object/has_spec.py", "gemd/entity/object/has_template.py"]}
{"id": "C18", "title": "A link made from an entity refers to that entity", "statement": "to_link and LinkByUID.from_entity return a link whose scope (up to case) and id are one of the entity's uids, with the requested scope when the entity has it; the link compares equal to the entity; to_link never changes the entity and raises exactly when there is no suitable uid; from_entity always succeeds and adds at most one uid, only when the entity had none.", "quantifier": "all uid dictionaries, requested scopes in any casing, and fallback settings", "why_tests_cant": "Ranges over all uid dictionaries and casings.", "anchors": ["gemd/entity/base_entity.py: to_link, __eq__", "gemd/entity/link_by_uid.py: LinkByUID.from_entity, __eq__"]}
{"id": "C19", "title": "Assigning uuids is minimal, complete and idempotent", "statement": "set_uuids(obj, scope) gives every entity reachable through writable or read-only references a uid under the scope when it had none, never alters or removes an existing uid, and a second call changes nothing.", "quantifier": "all finite object graphs including cyclic ones and containers nested to any depth", "why_tests_cant": "Ranges over all graphs, cycles and prior uid assignments.", "anchors": ["gemd/util/impl.py: set_uuids, recursive_foreach"]}
{"id": "C20", "title": "Graph traversals terminate and visit each entity once", "statement": "recursive_foreach and recursive_flatmap terminate on every finite object graph, cyclic or not, and call the function exactly once on every reachable entity and on no other.", "quantifier": "all finite object graphs and nestings of containers", "why_tests_cant": "Termination and exactly-once over all cyclic graphs.", "anchors": ["gemd/util/impl.py: recursive_foreach, recursive_flatmap"]}
{"id": "C21", "title": "flatten lists every reachable entity once, without nested entities", "statement": "flatten(obj, scope) contains a copy of every reachable entity exactly once (identified by uid), nothing else, and no element holds another entity: each reference has become a link to a uid of the entity it pointed to.", "quantifier": "all finite object graphs", "why_tests_cant": "Ranges over all graphs; completeness and uniqueness need induction.", "anchors": ["gemd/util/impl.py: flatten, substitute_links, recursive_flatmap"]}
{"id": "C22", "title": "flatten writes dependencies before dependents", "statement": "In the list returned by flatten, every entity that another one links to (through a serialised field) comes earlier in the list, so a reader that resolves links in order always succeeds.", "quantifier": "all finite object graphs whose reference fields hold the entity types their setters accept", "why_tests_cant": "Ordering over all graphs; depends on the rank table being right for every pair of types.", "anchors": ["gemd/util/impl.py: writable_sort_order, flatten", "gemd/entity/object/*.py, gemd/entity/template/*.py: reference setters"]}
{"id": "C23", "title": "substitute_links and substitute_objects are inverse", "statement": "substitute_links replaces every entity inside the argument by a link and changes nothing else; substitute_objects with an index of those entities restores the references; neither modifies its argument when not in place; with allow_fallback the native uid is preferred when present.", "quantifier": "all nested containers, DictSerializable values and entities", "why_tests_cant": "Ranges over unboundedly nested structures.", "anchors": ["gemd/util/impl.py: substitute_links, substitute_objects, _substitute, _substitute_inplace, make_index"]}
{"id": "C24", "title": "Serialisation round trip", "statement": "loads(dumps(obj)) yields an object graph isomorphic to the one reachable from obj: the same entities by uid, the same types and field values, the same references with sharing preserved (entities referenced twice are one object), and the read-only sides of links rebuilt to the same set of objects.", "quantifier": "all finite well-formed object graphs", "why_tests_cant": "An isomorphism statement over all graphs, sharing patterns and cycles.", "anchors": ["gemd/json/gemd_json.py: GEMDJson.dumps, loads, _load_and_index", "gemd/util/impl.py: flatten, substitute_links", "gemd/entity/dict_serializable.py: from_dict, as_dict"]}
{"id": "C25", "title": "Loading resolves links regardless of the casing of the scope", "statement": "While loading, a link is replaced by the earlier entity carrying that id under that scope, in any casing of the scope; every link without such an entity stays a link; all links to one uid become the same object.", "quantifier": "all JSON documents (trees of any size)", "why_tests_cant": "Ranges over all documents and casings.", "anchors": ["gemd/json/gemd_json.py: GEMDJson._load_and_index, loads"]}
{"id": "C26", "title": "Entity equality is well defined on cyclic graphs", "statement": "a == b terminates on all graphs including cyclic ones; a == a; entities of different type are unequal; entities with different uids are unequal; a == b is expected to be symmetric.", "quantifier": "all pairs of entities in all finite object graphs", "why_tests_cant": "Termination and algebraic laws over all graphs.", "anchors": ["gemd/entity/base_entity.py: _cached_equals, __eq__"]}
{"id": "C27", "title": "Link equality and hashing agree", "statement": "Two LinkByUID objects compare equal exactly when scope and id agree, equality is an equivalence relation, and equal links hash alike; a link equals an entity exactly when the entity carries the id under that scope in any casing.", "quantifier": "all links, entities and uid dictionaries", "why_tests_cant": "Equivalence laws over all links.", "anchors": ["gemd/entity/link_by_uid.py: __eq__, __hash__", "gemd/entity/base_entity.py: __eq__"]}
{"id": "C28", "title": "make_instance mirrors the spec graph", "statement": "make_instance(spec) creates exactly one run per distinct reachable spec, of the corresponding type, with run.spec the spec and with run-to-run references mirroring the spec-to-spec references (process, material, ingredients); shared specs give shared runs; the specs are not modified.", "quantifier": "all spec graphs, including shared sub-graphs", "why_tests_cant": "Graph homomorphism over all graphs.", "anchors": ["gemd/entity/util.py: make_instance"]}
{"id": "C29", "title": "all_dependencies lists exactly the directly referenced entities", "statement": "obj.all_dependencies() is exactly the set of entities and links directly referenced from the object's writable fields (template, spec, process, material, attribute templates at any depth of the attribute lists).", "quantifier": "all entities of the fourteen types and all their field contents", "why_tests_cant": "Ranges over all types with their mixins and all field contents.", "anchors": ["gemd/entity/base_entity.py: all_dependencies", "gemd/entity/has_dependencies.py", "gemd/entity/object/*.py, gemd/entity/template/*.py: _local_dependencies"]}
{"id": "C30", "title": "Enumerations read strings up to case and surrounding whitespace", "statement": "For every enumeration and every string, from_str returns the first member one of whose spellings equals the string up to case and surrounding whitespace; when there is none it raises if asked to (exception=True) and otherwise returns None; every member is recovered from its own value; members have distinct values up to case.", "quantifier": "all enumerations (lists of members with synonyms), all strings", "why_tests_cant": "Ranges over all strings and member tables.", "anchors": ["gemd/enumeration/base_enumeration.py: BaseEnumeration.__new__, from_str"]}
{"id": "C31", "title": "InChI strings are normalised to a fixed prefix", "statement": "Storing any InChI spelling yields a string that starts with InChI, storing that again changes nothing (idempotence), and only the prefix is rewritten: the body after the prefix is kept.", "quantifier": "all strings", "why_tests_cant": "Ranges over all strings.", "anchors": ["gemd/entity/value/inchi_value.py: InChI.inchi"]}
{"id": "C32", "title": "Empirical formulas mention only elements", "statement": "A formula string is accepted exactly when every maximal element-like token in it (an upper-case letter followed by lower-case letters) is a chemical symbol, and the component set used for bounds checks is exactly the set of those tokens.", "quantifier": "all strings", "why_tests_cant": "Ranges over all strings.", "anchors": ["gemd/entity/value/empirical_formula.py"]}
{"id": "C33", "title": "Categorical distributions are normalised", "statement": "A DiscreteCategorical only ever stores probabilities whose sum is within 1e-9 of one; a rejected assignment keeps the previous one; a bare string means probability one.", "quantifier": "all histories of assignments of any mapping", "why_tests_cant": "Invariant over histories.", "anchors": ["gemd/entity/value/discrete_categorical.py: probabilities"]}
{"id": "C34", "title": "The type registry is a function from type names to the most derived class", "statement": "Over any sequence of class definitions, each type name maps to one class, a class can take over a name only from one of its ancestors, a rejected definition leaves the registry unchanged, unserialised fields accumulate down the hierarchy, and mutating the returned mapping does not affect the registry.", "quantifier": "all finite sequences of class definitions", "why_tests_cant": "Invariant over histories of definitions.", "anchors": ["gemd/entity/dict_serializable.py: DictSerializableMeta"]}
{"id": "C35", "title": "Unit caches never serve answers from a replaced definitions file", "statement": "For every sequence of parse_units, convert_units, get_base_units and change_definitions_file calls, each answer is the one the definitions currently in force give, exactly as if nothing were cached, for any cache size; parse_units gives a unit of the registry in force if return_unit is true and else a text for a text; get_base_units refuses units of a registry that was replaced; a failing change leaves the definitions in force.", "quantifier": "all call histories, cache sizes and definition files", "why_tests_cant": "Coherence over all histories with eviction.", "anchors": ["gemd/units/impl.py: parse_units, convert_units, get_base_units, change_definitions_file"]}
{"id": "C36", "title": "Displayed units carry the scaling factor that was parsed", "statement": "A numeric scaling factor in a unit string, in every accepted spelling, is displayed in the formatted unit as the same number followed by its unit; turning the internal unit names back into text terminates and leaves no internal spelling behind.", "quantifier": "all numeric literals and unit names, all strings for termination", "why_tests_cant": "Ranges over all strings.", "anchors": ["gemd/units/impl.py: _scaling_store_and_mangle, _unmangle_scaling, _scaling_identify_factors, _scaling_find_blocks"]}
{"id": "C37", "title": "Builders create consistent nodes and edges", "statement": "make_node returns a MaterialRun with its process, specs and (optionally) templates consistently linked; add_edge(a, b) adds exactly one ingredient consuming a in b's process, both at run and at spec level, and raises without modifying anything when its arguments are inconsistent; add_measurement attaches exactly one measurement; make_value builds a value accepted by the given bounds or raises.", "quantifier": "all graphs, names, quantities and bounds", "why_tests_cant": "Ranges over all graphs and argument combinations.", "anchors": ["gemd/builders/impl.py: make_node, add_edge, add_measurement, add_attribute, make_attribute, make_value"]}
{"id": "C38", "title": "Serialisable values survive conversion to and from dictionaries", "statement": "from_dict(as_dict(x)) equals x for every non-entity serialisable object; unknown keys are ignored; the type entry is the registered type name.", "quantifier": "all serialisable objects and all extra keys", "why_tests_cant": "Ranges over all objects and nested contents.", "anchors": ["gemd/entity/dict_serializable.py: from_dict, as_dict, build"]}
{"id": "C39", "title": "The release gate lets exactly the increasing versions through", "statement": "The release check exits with success exactly when the new version is strictly greater than the old one; an unchanged version always exits with 4; a decrease exits with 1, 2 or 3 for the most significant of major, minor, micro that differs and 5 when none does.", "quantifier": "all pairs of versions (release components of any length plus pre/post/dev ordering key)", "why_tests_cant": "Ranges over all pairs of versions.", "anchors": ["scripts/validate_version_bump.py: main"]}
{"id": "C40", "title": "uids assignments keep identifiers unambiguous", "statement": "However uids are supplied (mapping, pair, None, add_uid), the entity's uids never hold two scopes equal up to case, and add_uid with an existing scope in another casing is rejected without effect. Assigning a mapping stores exactly its entries or is refused without effect, and what add_uid stored can be assigned again.", "quantifier": "all histories of uids assignments and add_uid calls", "why_tests_cant": "Invariant over histories.", "anchors": ["gemd/entity/base_entity.py: uids, add_uid"]}
{"id": "C41", "title": "Links made in place can be undone with an index made before", "statement": "In a graph without links, whose uids are pairwise distinct, whose references have the right types and are mirrored by their read-only sides, make_index of an entity, then substitute_links on it in place, then substitute_objects in place with that index, leaves every assignable attribute of every entity as it was, and both sides of every reference in agreement (provided the setters accept the values and tuples hold neither numbers nor pairs of strings).", "quantifier": "all graphs, entities and sort orders of attributes", "why_tests_cant": "Ranges over all graphs; the read-only sides are changed and changed back by setters of other objects.", "anchors": ["gemd/util/impl.py: make_index, substitute_links, substitute_objects, _substitute_inplace"]}
{"id": "C42", "title": "Substituting without inplace changes no object there is", "statement": "substitute_objects without inplace leaves every entity that existed before the call as it was, read-only sides included, whatever the index and the argument are; entities in its result are new ones.", "quantifier": "all graphs, indices, arguments and constructors", "why_tests_cant": "A copy whose setter touches an existing object would modify it; ranges over all graphs.", "anchors": ["gemd/util/impl.py: substitute_objects, _substitute", "gemd/entity/dict_serializable.py: build"]}
{"id": "C43", "title": "Slices of typed lists store members of one permitted object or nothing", "statement": "Assigning an object to a slice of a ValidList either raises and leaves the list as it was, or the object is itself permitted and the members of what the trigger makes of it take the place of exactly the elements the slice selects, the others staying in order; so a list whose permitted elements are not iterable refuses every slice assignment. Deleting slices, pop, remove and *= only take out or repeat elements. If permitted objects contain only permitted ones, every history of all these operations keeps the content type.", "quantifier": "every ValidList state, slice (any start, stop and step, given or not), object, trigger and finite history of operations", "why_tests_cant": "Slice arithmetic has many boundary cases (negative and out-of-range ends, negative steps) and the list can have any length.", "anchors": ["gemd/entity/valid_list.py: ValidList.__setitem__ and what is inherited from list"]}
{"id": "C44", "title": "Runs show their spec's name, labels and template, and references hold the right classes", "statement": "After any history of constructions and assignments, accepted or rejected, every reference field holds None, a link or an object of the class it asks for, output materials are materials and list members are ingredients or measurements. While the spec of an ingredient run is an object the run shows that object's current name and labels (an assignment to the spec shows on every run, a label appended through a run lands on the spec); once the run lets go of it, the name and labels of that moment stay, whatever happens to the former spec. The name of an ingredient run cannot be assigned. A run's template is its spec's template, and none when the spec is None or a link.", "quantifier": "all histories of constructions, reference, name and label assignments and label appends, for any entity equality", "why_tests_cant": "The remembered name must be right however the former spec is changed later and however often the spec is exchanged; an invariant over histories.", "anchors": ["gemd/entity/object/ingredient_run.py: name, labels, spec", "gemd/entity/object/has_spec.py: spec, template", "gemd/entity/object/has_template.py", "gemd/entity/object/base_object.py: name", "gemd/entity/setters.py: validate_str, validate_list"]}
{"id": "C45", "title": "Thin dumps, copies and material histories are faithful", "statement": "For a graph of well-formed entities with distinct uids: thin_dumps of an entity writes one record, and raw_loads of it anywhere creates exactly one entity with the class, uids and fields of the original and links in place of entities; of any other value it writes the value with links in place of entities, and raw_loads gives that back and creates nothing. copy creates new entities only, isomorphic to those copied, and leaves the existing ones alone. complete_material_history lists exactly one such record for each entity reachable from the material, its own first. All of them give entities without uids a uid and change nothing else.", "quantifier": "every object graph, cyclic or not, every scope and every state of the program in which the text is read back", "why_tests_cant": "The result depends on a whole graph of references that may be cyclic and of any size, and on what exists where it is loaded.", "anchors": ["gemd/json/gemd_json.py: GEMDJson.thin_dumps, raw_loads, copy", "gemd/entity/util.py: complete_material_history"]}
{"id": "C46", "title": "Objects in circles can be shown and written nested", "statement": "After any history of constructions and assignments in which the data given besides references hold no entities other than attribute templates, repr of every object returns: every attribute is shown, with the entities it holds in full, the read-only sides of two-sided references by class and name only; entities are nested at most six deep however large the graph is and however references run in circles. The text depends on nothing but the entities shown in full and the names of the others. raw_dumps (and so dump) of every value returns too, never raising for a circular reference, with the same bound on nesting, entities in full without their read-only sides.", "quantifier": "all histories of constructions, reference, name and label assignments, for any entity equality, and all values over the resulting graph", "why_tests_cant": "Every graph with a process is circular; that no circle lies on assignable sides alone is an invariant over histories.", "anchors": ["gemd/entity/dict_serializable.py: __repr__, _name_repr, as_dict, dump", "gemd/entity/link_by_uid.py: __repr__", "gemd/json/gemd_json.py: raw_dumps", "gemd/json/gemd_encoder.py"]}
{"id": "C47", "title": "No text disturbs the objects that exist", "statement": "Whatever text is loaded, in whatever state of the program and whatever the constructors make of the other attributes: loads and raw_loads leave every object that exists as it was. If they return, then the references of the new objects have the right types, the read-only lists hold exactly the objects that refer to their owner, and what a process names as its output names the process; after raw_loads, materials and processes agree both ways. So in any session of constructions, assignments and loads of any texts, references are always well typed and outputs always name their process; lists and materials stay in order as long as no assignment goes wrong in the ways of C15 and C16.", "quantifier": "all JSON texts, all states, all constructors of attributes, all interleavings of constructions, assignments and loads", "why_tests_cant": "The text is untrusted input of any shape and depth; the claim is an invariant over every way it can be decoded.", "anchors": ["gemd/json/gemd_json.py: loads, raw_loads, _load_and_index", "gemd/entity/dict_serializable.py: from_dict, build", "gemd/entity/object/*.py: constructors and reference setters"]}
{"id": "C48", "title": "raw_loads of raw_dumps copies what was written, entity by entity", "statement": "For every value whose entities JSON and the constructors can represent, raw_dumps writes a text and changes nothing, and raw_loads of that text, in whatever state of the program, returns the value with a copy in place of each entity. Copied are exactly the entities the value leads to without going through output_material, ingredients or measurements; nothing else is made; a copy has the class, the uids and the attributes of its original, references leading to copies, and the objects that exist are left alone. Nothing is joined: whatever the text, no two references among the objects raw_loads makes lead to the same object, so entities that shared an entity come back with a copy of it each.", "quantifier": "all heaps, all representable values of any depth and any sharing, all states in which the text is read; the last part: all texts", "why_tests_cant": "Graphs are unboundedly large and arbitrarily shared; the claim relates whole graphs, and its last part is about every text.", "anchors": ["gemd/json/gemd_json.py: raw_dumps, raw_loads, _load_and_index", "gemd/json/gemd_encoder.py: default", "gemd/entity/dict_serializable.py: as_dict, from_dict", "gemd/entity/object/*.py: constructors and reference setters"]}
{"id": "C49", "title": "Exactly what every assignment to a two-sided reference does", "statement": "After any history of constructions and assignments, accepted and rejected ones alike, and whatever entity equality answers: assigning to the process of a material, to the material of a measurement or to the process of an ingredient is accepted exactly for None, a link or an object of the right class and raises a TypeError for anything else. Either way the former process loses its output, and the list of the former owner loses its first item that is the object or equal to it; if the assignment is accepted, the new process names the material as its output and the new owner's list ends with the object; nothing else changes in any object. If the former owner's list has no such item the assignment raises a ValueError and changes nothing. A list never has more items than there are objects referring to its owner, and has exactly as many if no assignment to an attached object was rejected. An object that its owner does not list stays so, keeps referring to the owner, and no value can be assigned to its reference, for as long as nothing in the list is equal to it.", "quantifier": "all histories of constructions and assignments, all values assigned, any entity equality", "why_tests_cant": "The effect must be right in every state, including those left by rejected assignments and equal siblings; the counts and the last part are invariants over histories.", "anchors": ["gemd/entity/object/measurement_run.py: material", "gemd/entity/object/ingredient_run.py: process", "gemd/entity/object/ingredient_spec.py: process", "gemd/entity/object/material_run.py: process", "gemd/entity/object/material_spec.py: process"]}
{"id": "C50", "title": "Everything a case-insensitive dictionary does, inherited operations and failures included", "statement": "Every history of operations on a CaseInsensitiveDict, including setdefault, |= and operations that raise, gives the answers and content of one small specification: an ordinary dictionary of stored pairs plus the keys that lookups can see. Whatever was done before, no casing of a key is stored twice, d[k] gives a value stored under a key equal to k up to case, k in d says whether d[k] succeeds, and every casing of k is answered alike. An operation that raises changes nothing, except deleting a hidden key, popping a last pair whose key is hidden, and an update that names one key in two casings.", "quantifier": "all constructor arguments, all finite histories of all operations, any lower-casing function and value type", "why_tests_cant": "Two tables must stay consistent through every interleaving, including states that only failing or inherited operations create.", "anchors": ["gemd/entity/case_insensitive_dict.py: CaseInsensitiveDict"]}
{"id": "C51", "title": "contains, union and update for every argument, failures included", "statement": "contains answers whether everything the argument admits is admitted, False for None, TypeError for an object that is neither bounds nor a value, and raises for a value without content the error that names its lack (ValueError for a missing number or category, an inverted range or an integer no double equals; OverflowError for an integer too large for a double; TypeError for missing probabilities or a missing formula). union raises TypeError if any argument is of another kind, otherwise the first argument with a fault decides (no content, or IncompatibleUnitsError for another dimension), otherwise it gives the least upper bound. update becomes that union, or raises the same error and changes nothing; on molecular structure bounds it does nothing.", "quantifier": "all bounds the constructors make, all argument lists of bounds, values, None and other objects, in any order; units with a positive scale", "why_tests_cant": "The error depends on the order and the content of all arguments; tests try one bad argument at a time.", "anchors": ["gemd/entity/bounds/base_bounds.py: BaseBounds.contains", "gemd/entity/bounds/real_bounds.py: RealBounds.union", "gemd/entity/bounds/integer_bounds.py: IntegerBounds.union", "gemd/entity/value/base_value.py: BaseValue._to_bounds"]}
{"id": "C52", "title": "Enumerations, InChI texts and probabilities: the outcome for every text and table", "statement": "An enumeration can be declared exactly when no value reads as a spelling of an earlier member; its values are distinct and every declared value has its member. from_str gives the first member that has a spelling equal to the text up to case and surrounding white space (spellings with white space at an end are never read), and otherwise None or ValueError. Calling the class gives the member with exactly that value, else what from_str finds, else ValueError. migrated_enum is refused with ValueError exactly when the new value names no member; otherwise each old name gives the member of the last decoration with that name and all other names what they gave before. Assigning any text to an InChI stores it unchanged after InChI, with InChI=1S/ in front if it has no prefix, and otherwise with every later occurrence of the same prefix text replaced too. Assigning a table of probabilities stores it exactly when its numbers sum to one within 1e-9, or to NaN, and its keys are texts; otherwise the error is determined and nothing changes.", "quantifier": "all lists of declared members with any synonyms, all texts, all stacks of decorations, all tables of numbers including NaN, infinities and None", "why_tests_cant": "White space, repeated prefixes, aliases and special numbers combine without bound; tests fix a few spellings.", "anchors": ["gemd/enumeration/base_enumeration.py: BaseEnumeration, migrated_enum", "gemd/entity/value/inchi_value.py: InChI.inchi", "gemd/entity/value/discrete_categorical.py: DiscreteCategorical.probabilities"]}
{"id": "C53", "title": "Validation: what every assignment does at every level", "statement": "Whatever the validation level: assigning a value or a template to an attribute, adding an attribute to an object's list, assigning or extending such a list, and assigning a quantity to an ingredient has exactly one outcome, which is stated: accepted in silence, accepted with one message per attribute out of bounds, or refused with a named exception and no change. Values without content, templates that are links, attributes without a value, attributes matched by name only, and objects without a template are included. At FATAL every attribute with a value and a template object agrees with it after any history. Every attribute in an object's list got there by += or was not refused under the level and template of that moment. A quantity assignment touches its own field only. After any program the level is the one before or one the program names, with-blocks restore it whenever no exception leaves them, and a block an exception leaves keeps the level its body reached.", "quantifier": "all values with usable units, all well-made bounds, all template lists, all levels, all histories of assignments, all programs of nested level changes and exceptions", "why_tests_cant": "Levels, links, missing values and histories multiply; the exact exception and the number of messages matter to callers that filter warnings.", "anchors": ["gemd/entity/attribute/base_attribute.py: BaseAttribute", "gemd/entity/template/has_template_check_generator.py", "gemd/entity/object/has_quantities.py: HasQuantities", "gemd/entity/bounds_validation.py"]}
{"id": "C54", "title": "Regular expressions: units, formulas and versions are read as the patterns in the source say", "statement": "For every text: x * 10 ** y is rewritten to scientific notation, scaling factors are named, cleaned, replaced and named back, and the elements of a formula are found, exactly where and as the regular expressions in the source match under Python's rules (leftmost match, alternatives in order, repetitions longest first, backtracking, look-around, word boundaries). Cleaning a demo formula removes every number one behind a letter and before a letter or the end, and nothing else, and cleaning again changes nothing. Its LaTeX form puts exactly the numbers behind a letter and before a letter or the end of the cleaned formula into subscripts. The version of a file is the first one assigned at the start of a line, in matching quotes, alone on its line; a file without one raises ValueError.", "quantifier": "all texts (8-bit characters)", "why_tests_cant": "Backtracking, overlapping matches and look-around make the match depend on the whole text; examples cover a handful of shapes.", "anchors": ["gemd/units/impl.py: _scientific_notation_preprocessor, _scaling_store_and_mangle, _unmangle_scaling", "gemd/entity/value/empirical_formula.py: EmpiricalFormula._elements", "gemd/demo/strehlow_and_cook.py: formula_clean, formula_latex", "scripts/validate_version_bump.py: extract_version"]}
{"id": "C55", "title": "Every assignment to, and every construction of, a value, bounds or attribute object does what its field's rule says", "statement": "For each of the 23 dictionary-serialisable classes that are not entities, after any construction and any history of assignments (accepted or refused): every field can be read; an assignment stores and raises exactly what the written rule of that field says for that argument (an int becomes the nearest double, ties to even, or OverflowError from 2^1024 - 2^970 on; bounds may not cross; whole numbers must be doubles; texts, units, probabilities, quantities, formulas, InChI, origins, lists of instances and templates as described); no other field changes; and the rules determine the outcome uniquely. A constructor refuses arguments that do not fit its signature with TypeError, else gives its fields in its fixed order to these rules and raises what the first refusal raises.", "quantifier": "all 23 classes, all constructor arguments, all histories of assignments, all values assigned", "why_tests_cant": "Arguments range over every kind of Python value and every double and int, in every order; tests sample a few.", "anchors": ["gemd/entity/bounds/*.py", "gemd/entity/value/*.py", "gemd/entity/attribute/*.py", "gemd/entity/file_link.py", "gemd/entity/link_by_uid.py", "gemd/entity/source/performed_source.py", "gemd/entity/setters.py: validate_list, validate_str"]}
{"id": "C56", "title": "Attribute template lists of object templates record exactly the pairs they are given, or refuse", "statement": "Whatever is assigned to the properties, conditions or parameters of a material, process or measurement template (nothing, one template or link, a list, a pair with bounds, anything else), it stands for a definite list of entries; a wrong type anywhere raises TypeError, else the first entry that is refused decides (ValueError for bounds not inside the template's, or a sequence that is no pair; TypeError for a pair of the wrong things), else the list holds exactly one (template or link, bounds or None) pair per entry, in order. Appending follows the same rules and leaves the list alone when refused. The rules determine the outcome.", "quantifier": "all arguments, nested to any depth; all lists made so; all three kinds", "why_tests_cant": "The argument's shape decides how it is read; tests try a few shapes.", "anchors": ["gemd/entity/template/has_property_templates.py: properties", "gemd/entity/template/has_condition_templates.py: conditions", "gemd/entity/template/has_parameter_templates.py: parameters", "gemd/entity/template/base_template.py: _homogenize_ranges"]}
{"id": "C57", "title": "What a traversal does is known on every graph, for every function, whether it ends or raises", "statement": "recursive_foreach and recursive_flatmap call the function on entities one after the other, never twice on the same one, each lying in the object or in a field of one called before; an object that is an entity is called before all it refers to, whatever apply_first says. Then either a call raised and its exception ends the traversal, or all reachable entities were called, or a tuple containing a list or dictionary was met and TypeError ends it; what the calls did remains. If the calls do not raise, the traversal raises exactly if such a tuple can be met. apply_first makes no difference to functions that leave fields alone. flatmap deals with all that is reachable from an earlier item of a list before any other entity; foreach does so from the end. set_uuids leaves exactly the entities dealt with, if they had none, with one new uid each.", "quantifier": "all graphs, cyclic or not; all objects and nestings of containers; all functions with effects that leave fields alone; exceptions at any call", "why_tests_cant": "The visits depend on the shape of the whole graph and on where an exception falls.", "anchors": ["gemd/util/impl.py: recursive_foreach, recursive_flatmap, set_uuids"]}
{"id": "C58", "title": "What make_value makes of every argument, and what add_edge and add_attribute do with every input", "statement": "make_value turns a number into a nominal real or integer and a string (or None) into a category, formula, InChI (if it starts with 'InChI=') or SMILES according to the bounds, and raises AssertionError, TypeError, ValueError or OverflowError otherwise: for every argument and bounds exactly one of these, as the rules say, and which one does not depend on the limits of the bounds. add_edge looks at the output before the input. An input that is no material run makes it raise TypeError and change nothing, unless it is another run whose spec is a link: then the new ingredient spec stays attached to the output's spec. add_attribute adds the attribute it makes exactly if the target has a list for its class (a material spec takes conditions on its last property, if there is one) that does not reject it, and otherwise raises the list's exception or ValueError and changes nothing.", "quantifier": "all numbers (integers of any size, decimals, NaN, infinities), strings and other objects, all bounds; all graphs and all classes of the input", "why_tests_cant": "The kinds of arguments and bounds multiply, and the numbers are unbounded.", "anchors": ["gemd/builders/impl.py: make_value, add_edge, add_attribute"]}
{"id": "C59", "title": "Real bounds and distributions with the numbers Python has", "statement": "With doubles and integers of any size instead of exact numbers: a bound is accepted exactly if, unrounded, it does not cross the other one, and is stored rounded; after any history the ends are finite and not inverted. contains never raises; in the same units it is exactly inclusion; across units it respects inclusion on both sides, and for units that differ by a factor it accepts all that lies inside and nothing that lies outside by more than half a unit in the last place (with the true ratio instead of pint's factor: 2^-51 relative). union is widened exactly as far as the converted bounds reach, raises exactly for incompatible units and for bounds that overflow, is least in the same units, and update agrees with it. Non-negative probabilities are accepted if their exact total is one within the tolerance less 2^-51 per category and only if it is within the tolerance plus as much; up to two million with total one always are.", "quantifier": "all doubles, all integers, all histories of assignments and updates, all conversions made of multiplications, additions, subtractions and divisions by doubles, all lists of probabilities", "why_tests_cant": "Rounding errors show up for particular numbers among 2^64.", "anchors": ["gemd/entity/bounds/real_bounds.py: RealBounds", "gemd/entity/value/uniform_real.py: UniformReal", "gemd/entity/value/normal_real.py: NormalReal", "gemd/entity/value/discrete_categorical.py: DiscreteCategorical.probabilities", "gemd/units/impl.py: convert_units"]}
{"id": "C60", "title": "How a unit text is read, and what in it is a scaling factor", "statement": "Every unit text is cut into names, numbers, operators and unknown characters in exactly one way: at each place the longest name, number or operator that starts there. A text with an operator other than . + - * / // ^ ** ( ) raises UndefinedUnitError, whatever else it holds, and no other operator is refused at this stage. Otherwise the text is a product of factors, cut at * / // ( ) outside exponents and between two names; an exponent is the one token behind ** or ^ or the group in parentheses there. The first factor is never scaled. Any other factor with no number before its first power is left alone; with two numbers, with a number after a name, or with a number and a power it raises ValueError; with a number worth 0 or 1 it is left alone; else it becomes a scaling factor, with exactly the text from its first to its last token and the unit from behind the number to the first name. The first exception in order is raised, and nothing is defined then. A text with no numbers outside exponents behind its first factor is passed on unchanged.", "quantifier": "all texts, all nestings of parentheses and exponents, all numerals, all registries", "why_tests_cant": "The tokenizer, the operator stack and the block rules interact; tests show some two dozen unit texts.", "anchors": ["gemd/units/impl.py: _scaling_find_blocks, _scaling_identify_factors, _scaling_preprocessor"]}
{"id": "C61", "title": "What validation still guarantees after shared attributes, values, bounds and templates are changed", "statement": "Attributes, values, bounds and templates are objects that may be shared and changed in place. Assigning a value or template to an attribute, and putting an attribute into an object's list, judge what these objects hold at that moment. At level FATAL, after an accepted assignment the value is inside the bounds of the attribute's template until the attribute, that value, that template or its bounds are changed. In a history without changes to values, bounds, bounds of templates or the level, every attribute agrees with its template at all times. Every attribute in a list was put there by an operation on that list; unless that was += or the level was not FATAL, the object's template had nothing against it right after, and has nothing against it now if neither the attribute nor the template (nor anything they use) has been changed since. An operation that raises changes nothing. Nothing is checked again: a listed attribute can leave the range of the object's template by five kinds of later changes, all accepted at FATAL.", "quantifier": "all graphs of shared attributes, values, bounds, templates and objects, all histories of setters, list operations and level changes, all notions of template equality", "why_tests_cant": "Aliasing: whether a check still holds depends on every later operation on every object that is shared; tests check one assignment on fresh objects.", "anchors": ["gemd/entity/attribute/base_attribute.py: BaseAttribute.value, template", "gemd/entity/object/has_template_check_generator.py: HasTemplateCheckGenerator", "gemd/entity/object/has_template.py: HasTemplate.template", "gemd/entity/template/attribute_template.py: AttributeTemplate.bounds"]}
{"id": "C62", "title": "JSON texts carry exactly the tree they are written from, in every layout", "statement": "json.loads, and so loads, load, raw_loads and from_str, accepts exactly the texts of the JSON grammar (with NaN and the infinities), reads each as the one value the grammar gives it, and refuses every other text with a ValueError. Whatever dumps, dump or raw_dumps write, with any indent of white space, any separators made of a comma or colon between white space, and with or without ensure_ascii, is such a text; it is ASCII under ensure_ascii; it reads as the tree it was written from, so different trees have different texts and the layout does not matter to what is loaded. The one exception: under ensure_ascii (the default) a high surrogate directly followed by a low one comes back as a single character, without an error.", "quantifier": "all texts of code points, all trees of values, all layouts; floats are written as a number with fraction or exponent that reads as the same float", "why_tests_cant": "The reader has to be right on every text, including malformed ones of any length and nesting, and the writer on every string, depth and layout.", "anchors": ["gemd/json/gemd_json.py: GEMDJson.dumps, loads, raw_dumps, raw_loads, thin_dumps", "gemd/json/gemd_encoder.py: GEMDEncoder"]}
{"id": "C63", "title": "What a file holds after a dump, a failed dump, a stopped dump or a second dump", "statement": "If serialising raises, dump writes nothing. Otherwise it writes one text at the file's position, over as much as was there, and loading from that position gives what loads gives for that text if only white space follows it in the file, and is refused otherwise. If the program stops before the last character has reached the end of the file, the file is refused by load: a broken text is never taken for another object. After two dumps into one file, loading from the first is refused and loading from the second gives the second. obj.dump() is the tree that raw_dumps writes. Over an older file, however, a dump that stops midway can leave a text that loads as an object nobody dumped.", "quantifier": "all objects, files, positions, layouts and all points at which writing may stop", "why_tests_cant": "A crash may happen after any number of characters of a text of any length; tests only see dumps that complete.", "anchors": ["gemd/json/gemd_json.py: GEMDJson.dump, load", "gemd/json/__init__.py: dump, load", "gemd/entity/dict_serializable.py: DictSerializable.dump"]}
{"id": "C64", "title": "The demo tables show every record in its row and every value under its heading", "statement": "minimal_subset keeps, in order, the first row of each sequence of classes and no fewer rows would cover the table. make_strehlow_objects makes one run per record, in order, which share a spec exactly if their cleaned formulas are equal; of the attributes of a record with one name the first is kept. make_strehlow_table gives a rectangular table with one row per run, with the first value of each term or None; make_display_table succeeds exactly under stated conditions and shows each value under its heading, with the deviation of the band gap right behind it. If runs can be made of the records of a table, the display table exists, has one row of twenty entries per record and the listed headings. But of records, which are dictionaries, minimal_subset keeps only the first for each number of keys; a second value named Transition or Phase is dropped although it has a column of its own; and the standard deviation kept for a value in eV is the value itself.", "quantifier": "all tables of records, of material runs and of cells", "why_tests_cant": "Alignment of headings and rows has to hold for every table, of any length and any mixture of values; the tests run one table.", "anchors": ["gemd/demo/strehlow_and_cook.py: minimal_subset, make_templates, make_strehlow_objects, make_strehlow_table, make_display_table"]}
{"id": "C65", "title": "The example ingesters read every field as written and lose nothing silently but what is listed", "statement": "A field is read as a nominal number, a normal one with the written deviation, or a category, exactly as its words say: a text of one word or none is a number if it is one and a category otherwise; a text of several words is a number, an optional deviation after +- or +/-, and the unit of the last word (none if that is no unit). Every other text raises, a first or third word that is no number ValueError, a missing deviation IndexError. ingest_material_run makes of a dictionary one run with a measurement for each experiment, in order, each with one attribute for every known field it has and no others, the uid if the id is true and the tags if they are; it succeeds exactly if tags and known fields can be read. A list becomes the list of what its elements become. ingest_table keeps the measurements a run has and adds one for each row, in order. But the spec that is given is never set as spec; a process run given with a list is dropped; and of a unit written with spaces only the last word is read.", "quantifier": "all field texts, dictionaries, lists of any nesting, and tables", "why_tests_cant": "The words of a text, the nesting of lists and the orders in which a set is iterated over are unbounded or hidden; a test fixes one of each.", "anchors": ["gemd/demo/material_run_example.py: _parse_value, ingest_material_run", "gemd/demo/table_example.py: ingest_table"]}
{"id": "C66", "title": "The cake and measurement demos give every run its particulars once, for every recipe, order and seed", "statement": "However the objects of a recipe are ordered and whatever is drawn, make_cake gives each material, process and ingredient run once: the uid of its spec followed by the key of the cake, the tags of the spec, its notes as a quotation; raw materials the name of a supplier (of produce or of dry goods), other processes than procuring the source of the process of the cake, ingredients quantities within five percent of the spec (mass fractions within ten); each draw is used once, specs and other objects are not changed, and it succeeds exactly if uids, templates, outputs and nominal values are there. Runs share a uid exactly if their specs do, and never with another cake; the eight measurements differ. The materials measured are the first with the name, in the order of the recipe. The scopes are those of the last change_scope. Flexural tests have the values of the formulas; without deflection they raise ZeroDivisionError. But the name of a procuring process depends on the order of the traversal; a mass fraction above 10/11 can become more than one; and the volume fractions of the runs always add up to more than those of the specs.", "quantifier": "all recipes, all orders of the traversal, all draws, all histories of change_scope, all deflections", "why_tests_cant": "A test sees one recipe and one seed; the draws and the recipes are unbounded.", "anchors": ["gemd/demo/cake.py: change_scope, get_demo_scope, get_template_scope, make_cake", "gemd/demo/measurement_example.py: make_demo_measurements, make_flexural_test_measurement"]}
{"id": "C67", "title": "Validation levels used by several threads", "statement": "Whatever the schedule, the level in force and the level of every check are the one at the start or one that some thread asked for: no check is laxer than the laxest level in use, and if all ask for the level there is, nothing changes. If only one thread changes levels, it sees and leaves what it would on its own. If blocks of validation_level do not overlap between threads and levels are set only inside blocks, every thread sees what it would on its own, and the first level is back whenever nobody is in a block; for the latter it is enough that the first to enter is the last to leave. But with overlapping blocks the level can stay changed after all have been left, a check in a FATAL block can be made at IGNORE, even threads that ask for the same level can lose it, and a level set while a block is being entered is lost.", "quantifier": "all programs of checks, set_validation_level and nested blocks, any number of threads, all interleavings of their reads and writes", "why_tests_cant": "A test runs one interleaving, and which one is not under its control.", "anchors": ["gemd/entity/bounds_validation.py: get_validation_level, set_validation_level, validation_level"]}
{"id": "C68", "title": "Unit functions and changes of the definitions file used by several threads", "statement": "Whatever the schedule and whatever the caches drop, convert_units, parse_units and get_base_units answer only from registries that have been in force, and these are the first one or loaded, completely, from a file with the name of one asked for; every thread gets what its program asks for, in that order, and ends if it is let run; once no change is under way there are exactly as many new registries as changes told to be done. If no call overlaps a change of definitions, every answer is exactly what the registry then in force gives. If no two changes overlap, then between changes the working directory is the first one, and the file in force is that of the last change that worked; a change fails only if its file is not there or cannot be read, and then changes nothing. With both, every answer is that of the file asked for last. But a call during a change puts an answer of the old definitions into the cache that is given long after the change; a conversion can mix two registries; two changes at once can leave the process in another directory, load the same-named file of another directory in place of the one asked for, or fail to find a file that is there.", "quantifier": "all programs of calls and changes, any number of threads, all interleavings, all evictions from the caches, all file systems whose resolved paths are canonical", "why_tests_cant": "A test runs one interleaving; the window between clearing the caches and replacing the registry is not under its control.", "anchors": ["gemd/units/impl.py: change_definitions_file, convert_units, parse_units, get_base_units"]}
{"id": "C69", "title": "Two-sided references assigned by several threads", "statement": "If every ingredient or measurement is assigned to by one thread only, then whatever the schedule, one that is not just being assigned to has the parent assigned to it last (assignments that raised do not count and change nothing), is in the list of that parent exactly once and in no other list - also if the threads share parents. If moreover no two threads search one list at the same time, no assignment raises. If every material is assigned to by one thread only, one that is not just being assigned to has the process assigned last, and no other process has it as output. What has been assigned is what the program of its thread says, in that order, and a thread that is let run ends its program. But two threads assigning one child can leave it in two lists; an assignment can raise ValueError for a child that was in the list all the time, if another thread takes out an item before it; and a process can lose its new output material to the setter of the old one.", "quantifier": "all programs of assignments, any number of threads and objects, all interleavings of the reads and writes of the setters, all consistent starts", "why_tests_cant": "A test runs one interleaving of a few assignments.", "anchors": ["gemd/entity/object/ingredient_run.py: process setter", "gemd/entity/object/ingredient_spec.py: process setter", "gemd/entity/object/measurement_run.py: material setter", "gemd/entity/object/material_run.py: process setter", "gemd/entity/object/material_spec.py: process setter"]}
{"id": "C70", "title": "Plain fields hold what was assigned, or the assignment is refused", "statement": "Assigning a name, tags, file links, labels, allowed names or labels, a source, a sample type, an origin or the author and date of a source - any value but an iterator - stores exactly that value (None and a single item count as lists; a sample type or origin may be spelled in any case and with white space around it) or raises the exception documented for it and changes nothing. So whatever a program constructs and assigns, texts are texts, lists hold only items of their type, sample types and origins are members of their enumerations, and a field holds what was last assigned to it successfully. Constructors store every argument as an assignment would, or make no object. But an iterator or generator assigned to a list field is used up by the check and the list is left empty without an error; and notes, descriptions and the names of templates and attributes hold whatever is assigned.", "quantifier": "all classes of entities, attributes and sources, all values, all programs of constructions and assignments", "why_tests_cant": "A test assigns a few values.", "anchors": ["gemd/entity/setters.py: validate_list, validate_str", "gemd/entity/valid_list.py: ValidList.__init__", "gemd/entity/base_entity.py: tags", "gemd/entity/object/base_object.py: __init__, name, file_links", "gemd/entity/object/ingredient_spec.py: labels", "gemd/entity/object/has_source.py: source", "gemd/entity/object/material_run.py: sample_type", "gemd/entity/template/process_template.py: allowed_names, allowed_labels", "gemd/entity/template/attribute_template.py: __init__", "gemd/entity/attribute/base_attribute.py: origin, file_links", "gemd/entity/source/performed_source.py: performed_by, performed_date"]}
{"id": "C71", "title": "Who sees a list of tags or labels change", "statement": "Whatever a program constructs, assigns, appends and keeps in variables: tags and labels given to a constructor or assigned are copied, so no two entities ever share a list of tags, or tags with labels. Appending to the tags of an entity changes the tags of that entity only. A run shows the labels of its ingredient spec; appending to its labels, and assigning labels to the spec, is seen by the spec and by exactly the runs that have this spec. Assigning a spec to a run shows the labels of that spec; assigning None or a link keeps a copy of the labels shown before, which later changes of the old spec do not touch; an assignment of anything else raises TypeError and changes nothing that is seen. Assigning labels to a run, and appending where there is no list, raises AttributeError and changes nothing. A list of tags or labels kept in a variable stays the list of its entity until the entity is assigned another; from then on, whatever else is done, changing it is seen by no entity. But a label appended through one run appears in its spec and in every other run of the spec.", "quantifier": "all programs of constructions, assignments, appends and variables, all ingredient specs and runs", "why_tests_cant": "Sharing shows only after a particular sequence of assignments and changes in place; a test tries a few of them.", "anchors": ["gemd/entity/base_entity.py: tags", "gemd/entity/object/ingredient_spec.py: labels", "gemd/entity/object/ingredient_run.py: __init__, labels, spec", "gemd/entity/object/has_spec.py: spec", "gemd/entity/setters.py: validate_list"]}
