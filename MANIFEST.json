{
 "claims": [
  {
   "property": "C01",
   "status": "proved",
   "theorems": [
    "C01_region",
    "C01_chars",
    "C01_prefix"
   ],
   "note": ""
  },
  {
   "property": "C02",
   "status": "proved",
   "theorems": [
    "C02_length",
    "C02_utf_round_trip",
    "C02_utf_length_overflow",
    "C02_length_overflow",
    "C02_null"
   ],
   "note": ""
  },
  {
   "property": "C03",
   "status": "proved",
   "theorems": [
    "C03_encoder",
    "C03_short_buffer",
    "C03_decoder"
   ],
   "note": ""
  },
  {
   "property": "C04",
   "status": "proved",
   "theorems": [
    "C04_region",
    "C04_utf_region",
    "C04_buffer",
    "C04_utf_buffer"
   ],
   "note": ""
  },
  {
   "property": "C05",
   "status": "proved",
   "theorems": [
    "C05_length",
    "C05_chars",
    "C05_encoder_wellformed"
   ],
   "note": ""
  },
  {
   "property": "C06",
   "status": "partial",
   "theorems": [
    "C06_refuted",
    "C06_partial",
    "C06_utf_partial"
   ],
   "note": "False of the code: out-of-range regions are undefined behaviour. C06_refuted gives a witness, C06_partial and C06_utf_partial characterise GetStringRegion and GetStringUTFRegion for every out-of-range region."
  },
  {
   "property": "C07",
   "status": "proved",
   "theorems": [
    "C07_arguments",
    "C07_no_paren"
   ],
   "note": "float/double conversions are parameters of the theorem"
  },
  {
   "property": "C08",
   "status": "proved",
   "theorems": [
    "C08_skip",
    "C08_any"
   ],
   "note": ""
  },
  {
   "property": "C09",
   "status": "partial",
   "theorems": [
    "C09_refuted",
    "C09_valist_partial",
    "C09_declare_partial",
    "C09_wellformed"
   ],
   "note": "False of the code for unterminated array/object descriptors (C09_refuted); the partial theorems give the exact set of safe texts for the va_list scan and for Declare."
  },
  {
   "property": "C10",
   "status": "proved",
   "theorems": [
    "C10_types",
    "C10_plain",
    "C10_header",
    "C10_stub",
    "C10_argument",
    "C10_arguments_length",
    "C10_decimal",
    "C10_distinct",
    "C10_native",
    "C10_field"
   ],
   "note": ""
  },
  {
   "property": "C11",
   "status": "proved",
   "theorems": [
    "C11_same_class",
    "C11_reports_name",
    "C11_lookup_returns",
    "C11_cxx"
   ],
   "note": "Over every history of the VM model, by any threads and in every build configuration."
  },
  {
   "property": "C12",
   "status": "proved",
   "theorems": [
    "C12_no_creation",
    "C12_creation_exact"
   ],
   "note": "No-create lookups change nothing; creation creates exactly the class and its outer classes."
  },
  {
   "property": "C13",
   "status": "partial",
   "theorems": [
    "C13_refuted",
    "C13_method_partial",
    "C13_field_partial",
    "C13_forever"
   ],
   "note": "False when the member already exists by another route, e.g. RegisterNatives with a null function (C13_refuted). Proved whenever the lookup creates the member; classes then exist forever."
  },
  {
   "property": "C14",
   "status": "partial",
   "theorems": [
    "C14_refuted",
    "C14_stable_partial",
    "C14_distinct"
   ],
   "note": "False with several base classes (C14_refuted). Stable over every history that adds no matching method to a class visited earlier; distinct names or signatures never share an ID."
  },
  {
   "property": "C15",
   "status": "partial",
   "theorems": [
    "C15_refuted",
    "C15_stable_partial",
    "C15_distinct"
   ],
   "note": "As C14, for fields."
  },
  {
   "property": "C16",
   "status": "proved",
   "theorems": [
    "C16_method",
    "C16_field",
    "C16_found_unique"
   ],
   "note": ""
  },
  {
   "property": "C17",
   "status": "partial",
   "theorems": [
    "C17_refuted",
    "C17_method_partial",
    "C17_field"
   ],
   "note": "False when a native of the same name and signature was registered before the ID was obtained (C17_refuted). Proved otherwise, and for fields without exception."
  },
  {
   "property": "C18",
   "status": "partial",
   "theorems": [
    "C18_refuted",
    "C18_static",
    "C18_instance_partial"
   ],
   "note": "False for instance methods when a native registration of the same name and signature came first (C18_refuted). Proved for static members, and for instance members without such a registration."
  },
  {
   "property": "C19",
   "status": "proved",
   "theorems": [
    "C19_constructor",
    "C19_not_inherited",
    "C19_found"
   ],
   "note": ""
  },
  {
   "property": "C20",
   "status": "proved",
   "theorems": [
    "C20_unregister",
    "C20_lookups_unchanged"
   ],
   "note": ""
  },
  {
   "property": "C21",
   "status": "partial",
   "theorems": [
    "C21_refuted",
    "C21_natives_partial",
    "C21_getMethod",
    "C21_first_partial"
   ],
   "note": "The table of native functions always has the most recent registration (C21_natives_partial), but looking the method up from C++ gives the first one (C21_refuted, C21_first_partial)."
  },
  {
   "property": "C22",
   "status": "partial",
   "theorems": [
    "C22_refuted",
    "C22_virtual_partial",
    "C22_own_class"
   ],
   "note": "False when an override sits in a class strictly between the class of the ID and that of the receiver (C22_refuted). Proved: the receiver's own class wins, else the ID; with an ID found from the receiver's class the most derived implementation always runs."
  },
  {
   "property": "C23",
   "status": "partial",
   "theorems": [
    "C23_refuted",
    "C23_nonvirtual_partial",
    "C23_inherited_undefined"
   ],
   "note": "False: undefined behaviour whenever the class only inherits the implementation (C23_inherited_undefined, witness C23_refuted). Proved when the class has its own."
  },
  {
   "property": "C24",
   "status": "proved",
   "theorems": [
    "C24_calls_catch",
    "C24_throw",
    "C24_return"
   ],
   "note": "Hooks are entered and left by separate steps; any program may run in between."
  },
  {
   "property": "C25",
   "status": "proved",
   "theorems": [
    "C25_methods",
    "C25_fields"
   ],
   "note": ""
  },
  {
   "property": "C36",
   "status": "proved",
   "theorems": [
    "C36_check",
    "C36_total",
    "C36_stays",
    "C36_throw_occurred",
    "C36_throw_new",
    "C36_describe",
    "C36_clear"
   ],
   "note": "Over every history of any threads."
  },
  {
   "property": "C26",
   "status": "proved",
   "theorems": [
    "C26_bracket",
    "C26_outer_frames",
    "C26_push",
    "C26_innermost_exists"
   ],
   "note": ""
  },
  {
   "property": "C27",
   "status": "proved",
   "theorems": [
    "C27_result",
    "C27_null",
    "C27_dropped"
   ],
   "note": ""
  },
  {
   "property": "C28",
   "status": "proved",
   "theorems": [
    "C28_local",
    "C28_new_local"
   ],
   "note": ""
  },
  {
   "property": "C29",
   "status": "proved",
   "theorems": [
    "C29_global",
    "C29_new",
    "C29_new_null",
    "C29_delete",
    "C29_delete_other",
    "C29_delete_null"
   ],
   "note": ""
  },
  {
   "property": "C30",
   "status": "proved",
   "theorems": [
    "C30_weak",
    "C30_gone_for_good",
    "C30_new",
    "C30_new_null",
    "C30_delete",
    "C30_delete_other"
   ],
   "note": "Objects in reference cycles are never released (reference counting)."
  },
  {
   "property": "C31",
   "status": "proved",
   "theorems": [
    "C31_delete",
    "C31_null",
    "C31_not_held"
   ],
   "note": ""
  },
  {
   "property": "C32",
   "status": "proved",
   "theorems": [
    "C32_same",
    "C32_total",
    "C32_equivalence"
   ],
   "note": ""
  },
  {
   "property": "C33",
   "status": "proved",
   "theorems": [
    "C33_local",
    "C33_global",
    "C33_weak",
    "C33_null"
   ],
   "note": ""
  },
  {
   "property": "C34",
   "status": "partial",
   "theorems": [
    "C34_defined_partial",
    "C34_book",
    "C34_frame",
    "C34_refuted"
   ],
   "note": "Proved for clients that do not pass weak references to PopLocalFrame and do not detach inside a hook; PopLocalFrame returns an expired weak reference unchanged, which makes the full claim false (C34_refuted)."
  },
  {
   "property": "C35",
   "status": "proved",
   "theorems": [
    "C35_kept",
    "C35_referenced",
    "C35_released"
   ],
   "note": ""
  },
  {
   "property": "C37",
   "status": "proved",
   "theorems": [
    "C37_isolated",
    "C37_step"
   ],
   "note": ""
  },
  {
   "property": "C38",
   "status": "proved",
   "theorems": [
    "C38_idempotent",
    "C38_attach_again",
    "C38_attach",
    "C38_distinct",
    "C38_detach",
    "C38_reattach"
   ],
   "note": "GetEnv is Attach in this code base. Detaching inside a running hook is undefined behaviour in the model."
  },
  {
   "property": "C44",
   "status": "proved",
   "theorems": [
    "C44_enter",
    "C44_exit",
    "C44_history",
    "C44_exclusive"
   ],
   "note": "A blocked MonitorEnter is a step that cannot be taken; fairness is not modelled."
  },
  {
   "property": "C39",
   "status": "proved",
   "theorems": [
    "C39_new",
    "C39_length",
    "C39_get",
    "C39_set",
    "C39_history",
    "C39_round_trip",
    "C39_elements",
    "C39_elements_null"
   ],
   "note": "Elements are integers; truncation to the element width by the caller's C types is not modelled."
  },
  {
   "property": "C40",
   "status": "partial",
   "theorems": [
    "C40_undefined",
    "C40_refuted",
    "C40_partial"
   ],
   "note": "Indices are never checked (C40_undefined, C40_refuted); negative lengths and wrong array types are reported (C40_partial)."
  },
  {
   "property": "C41",
   "status": "proved",
   "theorems": [
    "C41_set",
    "C41_refused",
    "C41_get",
    "C41_history",
    "C41_round_trip",
    "C41_keeps"
   ],
   "note": ""
  },
  {
   "property": "C42",
   "status": "partial",
   "theorems": [
    "C42_partial",
    "C42_refuted",
    "C42_weak_refuted"
   ],
   "note": "The initial reference is stored as it is: weak references do not keep the object alive and typed arrays refuse global references."
  },
  {
   "property": "C43",
   "status": "partial",
   "theorems": [
    "C43_partial",
    "C43_flat",
    "C43_declare",
    "C43_refuted"
   ],
   "note": "The element check uses the topmost ancestor of the element class only."
  },
  {
   "property": "C52",
   "status": "proved",
   "theorems": [
    "C52_new",
    "C52_round_trip",
    "C52_other"
   ],
   "note": ""
  },
  {
   "property": "C61",
   "status": "proved",
   "theorems": [
    "C61_constant",
    "C61_reads",
    "C61_new_utf",
    "C61_new",
    "C61_other"
   ],
   "note": ""
  },
  {
   "property": "C62",
   "status": "proved",
   "theorems": [
    "C62_prim",
    "C62_objects",
    "C62_length"
   ],
   "note": ""
  },
  {
   "property": "C50",
   "status": "partial",
   "theorems": [
    "C50_method_partial",
    "C50_field_partial",
    "C50_unset",
    "C50_refuted"
   ],
   "note": "False of the code: the reflected object has no class, so that FromReflected returns null. The exact results of both directions are proved."
  },
  {
   "property": "C51",
   "status": "partial",
   "theorems": [
    "C51_assignable",
    "C51_reflexive",
    "C51_transitive",
    "C51_instance_partial",
    "C51_instance_null",
    "C51_null",
    "C51_not_class",
    "C51_unregistered",
    "C51_superclass",
    "C51_no_superclass",
    "C51_instance_unset",
    "C51_instance_refuted"
   ],
   "note": "IsAssignableFrom is proved in full; IsInstanceOf is undefined for objects without a recorded class."
  },
  {
   "property": "C60",
   "status": "partial",
   "theorems": [
    "C60_get",
    "C60_first",
    "C60_constant",
    "C60_partial",
    "C60_refuted",
    "C60_new",
    "C60_plain",
    "C60_instantiate"
   ],
   "note": "The class is that of the static type of the first reference C++ code creates; it is the dynamic type only if that is used."
  },
  {
   "property": "C45",
   "status": "proved",
   "theorems": [
    "C45_calls",
    "C45_class_query",
    "C45_method_query",
    "C45_field_query",
    "C45_history",
    "C45_existing_method",
    "C45_denied_method",
    "C45_allowed_method",
    "C45_existing_field",
    "C45_denied_field",
    "C45_allowed_field",
    "C45_class_lookup",
    "C45_class_lookup_cxx"
   ],
   "note": ""
  },
  {
   "property": "C46",
   "status": "partial",
   "theorems": [
    "C46_never_partial",
    "C46_release_partial",
    "C46_refuted_outer",
    "C46_refuted_signature"
   ],
   "note": "False of the debug build: surrounding classes and classes in signatures are created without consulting the rules. Proved for histories that only ask for the class, and for release builds."
  },
  {
   "property": "C63",
   "status": "proved",
   "theorems": [
    "C63_step",
    "C63_history"
   ],
   "note": ""
  },
  {
   "property": "C47",
   "status": "proved",
   "theorems": [
    "C47_order",
    "C47_closed",
    "C47_attached",
    "C47_remove",
    "C47_symbols",
    "C47_refuted_throw"
   ],
   "note": "C47_refuted_throw shows the excluded case: a JNI_OnLoad that throws leaves the handle open."
  },
  {
   "property": "C48",
   "status": "partial",
   "theorems": [
    "C48_fresh_partial",
    "C48_entry_partial",
    "C48_always",
    "C48_refuted"
   ],
   "note": "False: attaching an attached path again runs JNI_OnLoad and JNI_OnUnload of the attached library. Proved: its entry and handle stay, other libraries are untouched."
  },
  {
   "property": "C64",
   "status": "partial",
   "theorems": [
    "C64_refuted",
    "C64_remove_partial",
    "C48_fresh_partial"
   ],
   "note": "False after a failed attempt: the path stays registered. Proved for paths without an entry, and after removeLibrary."
  },
  {
   "property": "C49",
   "status": "proved",
   "theorems": [
    "C49_attachment",
    "C49_frames",
    "C49_frames_exact",
    "C49_context",
    "C49_inside",
    "C49_refuted_negative"
   ],
   "note": "For code that attaches, detaches, pushes and pops only through scopes; C49_refuted_negative shows why sizes must not be negative."
  },
  {
   "property": "C65",
   "status": "partial",
   "theorems": [
    "C65_partial",
    "C65_refuted"
   ],
   "note": "False on a thread attached to another VM: the context silently uses that VM. Proved for threads without an environment of another VM."
  },
  {
   "property": "C57",
   "status": "proved",
   "theorems": [
    "C57_java_vm",
    "C57_jni_env",
    "C57_null",
    "C57_owner",
    "C57_override_env",
    "C57_reject_env",
    "C57_override_vm",
    "C57_reject_vm",
    "C57_hooks",
    "C57_add_hook",
    "C57_attached",
    "C57_template"
   ],
   "note": "Tables as reserved0 plus a list of function slots; hooks are functions of the table."
  },
  {
   "property": "C58",
   "status": "proved",
   "theorems": [
    "C58_jvalue",
    "C58_round_trip",
    "C58_frame",
    "C58_outcomes",
    "C58_history",
    "C58_bool",
    "C58_object_setter",
    "C58_object_getter",
    "C58_object_set",
    "C58_object_round_trip",
    "C58_null"
   ],
   "note": "C++ bool members normalise jboolean values other than 0 and 1 (C58_bool); object members for members bound with the registered type."
  },
  {
   "property": "C59",
   "status": "partial",
   "theorems": [
    "C59_type",
    "C59_unknown",
    "C59_arrays",
    "C59_signature",
    "C59_well_formed",
    "C59_hooks",
    "C59_methods",
    "C59_members",
    "C59_getters",
    "C59_setters",
    "C59_reads",
    "C59_environment",
    "C59_refuted_array",
    "C59_refuted_receiver",
    "C59_made",
    "C59_functions",
    "C59_property",
    "C59_compiles"
   ],
   "note": "Signatures are exact for all supported types. False in two cases: pointers and references to arrays have no signature (hooking throws), and a function with a receiver parameter is also installed with that parameter in the signature. Which C++ programs compile is the reading of the templates stated in WrapModel.v."
  },
  {
   "property": "C53",
   "status": "proved",
   "theorems": [
    "C53_class",
    "C53_registered",
    "C53_find_class",
    "C53_field",
    "C53_same_field",
    "C53_refuted_mixed",
    "C53_refuted_bases"
   ],
   "note": "For every number of threads and schedule. Other calls may run if the class names they add without the mutex are known (C53_class) resp. if they do not add the field to a base class (C53_field); C53_refuted_mixed and C53_refuted_bases show that these conditions are needed."
  },
  {
   "property": "C54",
   "status": "partial",
   "theorems": [
    "C54_partial",
    "C54_refuted"
   ],
   "note": "False for new methods: GetMethodID searches and inserts in separate critical sections, two threads may get different IDs (C54_refuted). Proved for methods that the class has or inherits."
  },
  {
   "property": "C55",
   "status": "proved",
   "theorems": [
    "C55",
    "C55_completes",
    "C55_cyclic"
   ],
   "note": "All calls of the concurrency model, not only GetFieldID; C55_cyclic shows that acyclicity is needed. The erasing loop of UnregisterNatives is one step of the model, so its own termination is not part of the claim."
  },
  {
   "property": "C56",
   "status": "partial",
   "theorems": [
    "C56_partial",
    "C56_members",
    "C56_refuted",
    "C56_refuted_types",
    "C56_refuted_methods",
    "C56_refuted_hook",
    "C56_refuted_hook_field",
    "C56_refuted_envs"
   ],
   "note": "False: NewGlobalRef, and in debug builds GetFieldID and GetMethodID, access the registry without the mutex. Proved for all calls that add no classes that way; global references are protected in all calls, the member tables of a class and the table of environments unless hooks, VM::GetEnv or (methods) lookups that add are used (C56_members); those are not (C56_refuted_hook, C56_refuted_hook_field, C56_refuted_envs)."
  },
  {
   "property": "C66",
   "status": "partial",
   "theorems": [
    "C66_null",
    "C66_accepted",
    "C66_rejected",
    "C66_parameters",
    "C66_exclusive",
    "C66_call",
    "C66_missing",
    "C66_kept",
    "C66_class",
    "C66_refuted_class",
    "C66_refuted_receiver",
    "C66_refuted_reference"
   ],
   "note": "Conversion of every parameter, the first error, and what is kept are proved for all functions and states. False in three points: a null receiver of a member function is not checked (C66_refuted_receiver), a class passed as jclass becomes an object of java/lang/Object if it had no class of its own yet (C66_class, C66_refuted_class), and an object passed by C++ reference is not kept alive (C66_refuted_reference). Order of evaluation fixed from left to right."
  },
  {
   "property": "C67",
   "status": "partial",
   "theorems": [
    "C67_call",
    "C67_static",
    "C67_instance",
    "C67_native",
    "C67_unsupported",
    "C67_end",
    "C67_thrown",
    "C67_returned",
    "C67_stale",
    "C67_kept",
    "C67_refuted"
   ],
   "note": "Which code runs with which arguments, results, exceptions and lifetimes are proved for all states. False in one point: an exception that is already pending is thrown instead of the result, and stays pending after C++ code caught it (C67_stale, C67_refuted). Parameters are numbers and shared pointers; evaluated from left to right."
  },
  {
   "property": "C68",
   "status": "partial",
   "theorems": [
    "C68_getMethod",
    "C68_invoke",
    "C68_missing",
    "C68_chosen",
    "C68_none",
    "C68_condition_partial",
    "C68_pointer_partial",
    "C68_both",
    "C68_refuted"
   ],
   "note": "Which method a call uses is proved for all hierarchies. As a condition the result is wrong when the class has both a static and an instance method of that name and signature (C68_both, C68_refuted)."
  },
  {
   "property": "C69",
   "status": "partial",
   "theorems": [
    "C69_none",
    "C69_runs",
    "C69_native",
    "C69_instance",
    "C69_end",
    "C69_refuted"
   ],
   "note": "Proved for every order of iteration, up to the first class with any method main. False in general: if that class has it as an instance method, start throws although another class has a static main, and which main runs depends on the order of an unordered map (C69_instance, C69_refuted)."
  },
  {
   "property": "C70",
   "status": "proved",
   "theorems": [
    "C70_declarations",
    "C70_terminates"
   ],
   "note": "For every reachable state whose member types are well-formed; names of members are taken as they are."
  },
  {
   "property": "C71",
   "status": "proved",
   "theorems": [
    "C71_definitions"
   ],
   "note": ""
  },
  {
   "property": "C72",
   "status": "proved",
   "theorems": [
    "C72_registration",
    "C72_descriptors",
    "C72_binding"
   ],
   "note": "C72_binding interprets the generated blocks; C72_descriptors is the FakeJni syntax, one descriptor per class."
  },
  {
   "property": "C73",
   "status": "proved",
   "theorems": [
    "C73_forward"
   ],
   "note": ""
  },
  {
   "property": "C74",
   "status": "partial",
   "theorems": [
    "C74_distinct_partial",
    "C74_distinct_refuted",
    "C74_same_name"
   ],
   "note": "False: a/b$c and a/b/c get the same C++ name (C74_distinct_refuted). Proved for classes that are not nested and have no empty packages. The name declared is the name used exactly if no package is empty or contains a dollar sign."
  },
  {
   "property": "C75",
   "status": "proved",
   "theorems": [
    "C75_dump"
   ],
   "note": "The file can be opened and written."
  },
  {
   "property": "C76",
   "status": "proved",
   "theorems": [
    "C76_reload"
   ],
   "note": "The C++ templates of the registration are the operation UBind_."
  },
  {
   "property": "C77",
   "status": "partial",
   "theorems": [
    "C77_declared_partial",
    "C77_declared_refuted"
   ],
   "note": "False for nested classes: a class declared earlier may mention a class nested in one that is not yet defined. Proved for classes that are not nested."
  },
  {
   "property": "C78",
   "status": "proved",
   "theorems": [
    "C78_get",
    "C78_get_null",
    "C78_round_trip",
    "C78_read",
    "C78_write",
    "C78_kept",
    "C78_release",
    "C78_release_only",
    "C78_release_null",
    "C78_once",
    "C78_is_copy"
   ],
   "note": "Addresses of freed blocks are not used again in the model."
  },
  {
   "property": "C79",
   "status": "partial",
   "theorems": [
    "C79_text_partial",
    "C79_null",
    "C79_null_array",
    "C79_elements_partial",
    "C79_release",
    "C79_refuted"
   ],
   "note": "False: the pointers do not keep the object alive (C79_refuted). Proved while the object is alive; releasing does nothing."
  },
  {
   "property": "C80",
   "status": "partial",
   "theorems": [
    "C80_count",
    "C80_partial",
    "C80_refuted",
    "C80_unbounded",
    "C80_lost"
   ],
   "note": "False: every non-empty array of numbers loses one block of its size (C80_refuted, C80_unbounded). Exact accounts for all histories (C80_count); proved for programs without such arrays."
  },
  {
   "property": "C81",
   "status": "proved",
   "theorems": [
    "C81_boot",
    "C81_makes",
    "C81_step",
    "C81_bind",
    "C81_builtin",
    "C81_find",
    "C81_string",
    "C81_buffer"
   ],
   "note": "The classes of Method, Field and reference objects are those of the table; such objects get their class when a reference of that static type is created (C60)."
  },
  {
   "property": "C82",
   "status": "partial",
   "theorems": [
    "C82_ignored",
    "C82_partial",
    "C82_refuted"
   ],
   "note": "False: the class is ignored (C82_refuted, C82_ignored); the exception is always a java/lang/Throwable with the message (C82_partial)."
  },
  {
   "property": "C83",
   "status": "partial",
   "theorems": [
    "C83_alloc",
    "C83_capacity",
    "C83_fatal",
    "C83_refuted"
   ],
   "note": "False for AllocObject: it is not implemented and returns null (C83_alloc). EnsureLocalCapacity throws for negative capacities. FatalError: the step does not end."
  },
  {
   "property": "C84",
   "status": "proved",
   "theorems": [
    "C84_register",
    "C84_method",
    "C84_field",
    "C84_static",
    "C84_instance",
    "C84_descriptor",
    "C84_vector",
    "C84_types",
    "C84_untyped",
    "C84_flags",
    "C84_constructor",
    "C84_init",
    "C84_total",
    "C84_arrays",
    "C84_null_base"
   ],
   "note": "Signatures with arrays of objects other than of a user class are not modelled here. Instance methods: found if no native function of the same name and signature was registered before (else see C17_refuted). C84_total: registration succeeds if everything the signatures name is registered; naming a class that was only looked up as a base class is undefined behaviour (C84_null_base)."
  },
  {
   "property": "C85",
   "status": "partial",
   "theorems": [
    "C85_lookup",
    "C85_refuted"
   ],
   "note": "False: the condition in getDescriptor() is never true, because looking the class up sets its base classes; getDescriptor() never registers members (C85_lookup)."
  },
  {
   "property": "C86",
   "status": "proved",
   "theorems": [
    "C86_blocks",
    "C86_length",
    "C86_calls",
    "C86_new",
    "C86_fields",
    "C86_ids",
    "C86_arrays",
    "C86_table",
    "C86_layout",
    "C86_slots"
   ],
   "note": "The initializer is modelled as a list of names of functions and template instances; that the overload of CallMethod is the one with the parameter type of the slot is a rule of C++ and part of the model. GetStringCritical and ReleaseStringCritical share the functions of GetStringChars and ReleaseStringChars, as do the two critical array functions (instances for void)."
  },
  {
   "property": "C87",
   "status": "partial",
   "theorems": [
    "C87_answers",
    "C87_distinct",
    "C87_same",
    "C87_kept",
    "C87_progress",
    "C87_race_partial",
    "C87_access",
    "C87_race_refuted",
    "C87_getenv_refuted",
    "C87_mixed",
    "C87_mixed_same",
    "C87_mixed_distinct"
   ],
   "note": "Everything but the last part holds for every schedule, also when the threads make all other calls of the concurrency model (C87_mixed...). The accesses are free of data races for the JNI functions (C87_race_partial), but VM::GetEnv of the C++ interface, which almost every C++ helper uses, does not take the mutex (C87_race_refuted). Environments are numbers: that the address of a freed one may be used again is not in the model."
  },
  {
   "property": "C88",
   "status": "partial",
   "theorems": [
    "C88_installs",
    "C88_start",
    "C88_again",
    "C88_undefined",
    "C88_refuted"
   ],
   "note": "Proved whenever the class exists or a Baron VM may create it, and it has or inherits no instance method main. False otherwise: FakeJni::Jvm::findClass never creates a class, and the null pointer is dereferenced (C88_undefined, C88_refuted: a VM that has just started)."
  },
  {
   "property": "C89",
   "status": "proved",
   "theorems": [
    "C89_null",
    "C89_local",
    "C89_global",
    "C89_global_made",
    "C89_detached",
    "C89_classes"
   ],
   "note": "Undefined without an environment of the thread (C89_detached)."
  },
  {
   "property": "C90",
   "status": "partial",
   "theorems": [
    "C90_class",
    "C90_constant",
    "C90_plain",
    "C90_instance",
    "C90_call",
    "C90_call_default",
    "C90_getClass",
    "C90_getClass_plain",
    "C90_getClass_detached",
    "C90_partial",
    "C90_refuted"
   ],
   "note": "The class is always the one with the name of the nearest descriptor, found again or created on each call; that is the class registered for the C++ class if this class has a descriptor itself and was registered under that name (C90_partial). False for a class derived from a described one without a descriptor of its own (C90_refuted)."
  },
  {
   "property": "C91",
   "status": "partial",
   "theorems": [
    "C91_cases",
    "C91_number_array",
    "C91_object_array",
    "C91_object_array_undefined",
    "C91_object",
    "C91_null",
    "C91_call",
    "C91_failed",
    "C91_null_id",
    "C91_number",
    "C91_other",
    "C91_refuted",
    "C91_class_refuted"
   ],
   "note": "C91_cases lists every form of signature; one theorem for each says exactly what is made. False: nothing is made for arrays of booleans (C91_refuted) nor for classes bound to a C++ type that cannot be instantiated (C91_object); an array of arrays gets a class with one dimension too many (C91_class_refuted); an instance has the class registered for its C++ type, not the class asked for; undefined if FindClass returns null for the class of the elements. Not modelled: the default when a running hook throws."
  },
  {
   "property": "C92",
   "status": "proved",
   "theorems": [
    "C92_exit",
    "C92_exit_detached",
    "C92_exit_running",
    "C92_destroy",
    "C92_destroy_running",
    "C92_later",
    "C92_attach",
    "C92_new"
   ],
   "note": "Undefined while code called by the VM runs on the thread (C92_exit_running, C92_destroy_running). Outside of the model: a JniEnvContext that outlives its thread, for which the program is aborted."
  },
  {
   "property": "C93",
   "status": "partial",
   "theorems": [
    "C93_refines",
    "C93_storage",
    "C93_all_destroyed",
    "C93_destroy",
    "C93_frame",
    "C93_same_array",
    "C93_made",
    "C93_negative",
    "C93_get",
    "C93_set",
    "C93_view",
    "C93_view_access",
    "C93_copied",
    "C93_copied_view",
    "C93_assigned",
    "C93_huge",
    "C93_refuted"
   ],
   "note": "Proved for all programs that do not copy array objects. False for copies: they share the elements, which are freed twice (C93_copied, C93_refuted); assigning one array object to another also loses elements for ever (C93_assigned)."
  },
  {
   "property": "C94",
   "status": "partial",
   "theorems": [
    "C94_objects",
    "C94_make",
    "C94_shared",
    "C94_null",
    "C94_pointer",
    "C94_copy",
    "C94_get",
    "C94_new",
    "C94_empty",
    "C94_alive",
    "C94_kept",
    "C94_destroy",
    "C94_content",
    "C94_top",
    "C94_typed_partial",
    "C94_typed_refuted",
    "C94_pointer_refuted",
    "C94_pointer14_refuted"
   ],
   "note": "False in two points. A view as an array of an indirect base class only checks the class just below that base (C94_shared says exactly what is taken; C94_typed_refuted); every element derives from the topmost class (C94_top), and from the element class if stores go through the class itself or its direct base (C94_typed_partial). A pointer or reference stores a copy of the static class unless the object is managed by shared pointers and user code is C++17 (C94_pointer, C94_copy, C94_pointer_refuted, C94_pointer14_refuted)."
  },
  {
   "property": "C95",
   "status": "proved",
   "theorems": [
    "C95_forward",
    "C95_field",
    "C95_methods",
    "C95_count",
    "C95_calls",
    "C95_vm",
    "C95_vm_methods"
   ],
   "note": "Methods are records of their signature and their one call; the macros are functions that build such records. A va_list is the list of values behind the named parameters. The finite table is checked by computation, the forwarding of argument lists of any length is by induction."
  },
  {
   "property": "C96",
   "status": "proved",
   "theorems": [
    "C96_parts",
    "C96_dump",
    "C96_state",
    "C96_names_refuted"
   ],
   "note": "C96_parts and C96_dump for every tree of packages and classes, C96_state for the tree of every reachable state with such names; classes of arrays may be present, as nothing is generated for them. C96_names_refuted shows that the condition on names is needed: a class named a{ ."
  },
  {
   "property": "C97",
   "status": "proved",
   "theorems": [
    "C97",
    "C97_distinct",
    "C97_table",
    "C97_deleted"
   ],
   "note": "For every number of threads and schedule, with all other calls of the concurrency model going on. Handles are numbers that are never used again, so the statements only speak of handles that are not deleted."
  },
  {
   "property": "C98",
   "status": "partial",
   "theorems": [
    "C98_partial",
    "C98_hooked",
    "C98_alone",
    "C98_refuted",
    "C98_refuted_field",
    "C98_refuted_hooks"
   ],
   "note": "Proved for members that the class has before (methods with native functions: if no thread unregisters natives of the class; C98_hooked for the others), and for new ones that only one thread may add (C98_alone; in VMs that return null, lookups of all other threads are allowed then). False otherwise: hooks search and insert without the mutex, a lookup or another hook at the same time makes a second member, and later lookups find the one without the hooked function (C98_refuted, C98_refuted_field, C98_refuted_hooks). Storing the function in the member is not modelled as an access."
  },
  {
   "property": "C99",
   "status": "proved",
   "theorems": [
    "C99",
    "C99_registered",
    "C99_ids",
    "C99_members"
   ],
   "note": "For every number of threads, schedule and acyclic hierarchy, with all calls of the concurrency model. <init> is simplified there. Claims about methods staying listed assume that no thread unregisters natives of the class (keeps_natives); C106_refuted shows that this is needed."
  },
  {
   "property": "C100",
   "status": "proved",
   "theorems": [
    "C100_misfit",
    "C100_dangling",
    "C100_null",
    "C100_undefined",
    "C100_identifier"
   ],
   "note": "The tables of HandleSpec name the functions. Arguments that are looked at only after another effect (the receiver of a call, the class of IsInstanceOf) are in C51, C66 and the call theorems."
  },
  {
   "property": "C101",
   "status": "partial",
   "theorems": [
    "C101_member",
    "C101_exact",
    "C101_throw",
    "C101_vm",
    "C101_partial",
    "C101_refuted",
    "C101_refuted_replaced",
    "C101_refuted_unregistered"
   ],
   "note": "The claim as stated is false of the code (C101_refuted_replaced: the slot is hooked again while the old function runs, which destroys the function object; C101_refuted_unregistered: a hooked native method is unregistered while it runs, after which the handler for exceptions reads the destroyed Method). Proved for all histories: which member a call runs (C101_member), exactly when the function object of a running hook still exists (C101_exact), and that for fields and methods not bound by RegisterNatives this is so unless that slot is hooked again, and exceptions end the call as usual (C101_partial)."
  },
  {
   "property": "C102",
   "status": "proved",
   "theorems": [
    "C102_history",
    "C102_reachable",
    "C102_default",
    "C102_other",
    "C102_thrown",
    "C102_zero",
    "C102_undefined"
   ],
   "note": "The number of data members of instances is an arbitrary function of state and signature. Simplified: the references of a call whose function has thrown end before the default is made."
  },
  {
   "property": "C103",
   "status": "partial",
   "theorems": [
    "C103_length",
    "C103_copy",
    "C103_assign",
    "C103_same",
    "C103_shared",
    "C103_dangling",
    "C103_once",
    "C103_returned",
    "C103_refused",
    "C103_null",
    "C103_leak",
    "C103_plain",
    "C103_copies_refuted",
    "C103_leak_refuted"
   ],
   "note": "False: the implicit copy constructor and assignment share the storage, which each destructor deletes. C103_copies_refuted and C103_leak_refuted are the witnesses. The theorems say exactly what happens instead, for all histories: a copy is indistinguishable from the array (C103_copy, C103_same, C103_shared); after one of them is destroyed every use of the elements of the other and its destruction are undefined (C103_dangling, C103_once), which happens whenever a hook returns a reference to an array (C103_returned); storage that an assignment replaces is never freed (C103_leak). Copies of default constructed arrays are harmless (C103_null), and programs without copies are those of C94 (C103_plain)."
  },
  {
   "property": "C104",
   "status": "partial",
   "theorems": [
    "C104_alive",
    "C104_defined",
    "C104_null",
    "C104_shared",
    "C104_pointer",
    "C104_reference",
    "C104_fresh",
    "C104_new",
    "C104_count",
    "C104_end",
    "C104_read",
    "C104_write",
    "C104_resolve",
    "C104_frames",
    "C104_delete",
    "C104_kept",
    "C104_freed",
    "C104_identity_refuted",
    "C104_pointer_refuted",
    "C104_class_refuted"
   ],
   "note": "False for references and values, and before C++17 for pointers: these give out a copy (C104_identity_refuted, C104_pointer_refuted), which can have the Java class of a derived class it does not belong to (C104_class_refuted). Proved for all histories: exactly what each kind of result gives (C104_null, C104_shared, C104_pointer, C104_reference), that copies are new objects (C104_fresh), that what was given out stays until its frame is popped or the reference deleted (C104_kept) and copies end with it (C104_freed), and when each operation is defined (C104_defined)."
  },
  {
   "property": "C106",
   "status": "proved",
   "theorems": [
    "C106",
    "C106_others",
    "C106_refuted"
   ],
   "note": "UnregisterNatives is one step under the mutex of the class. C106_refuted: an ID that a lookup has returned may be listed by no class any more, as the method is destroyed; callers must not use it."
  },
  {
   "property": "C105",
   "status": "proved",
   "theorems": [
    "C105",
    "C105_unique",
    "C105_kept",
    "C105_found"
   ],
   "note": ""
  }
 ]
}