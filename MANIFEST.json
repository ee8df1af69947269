{
 "claims": [
  {
   "property": "C01",
   "status": "proved",
   "theorems": [
    "C01_bool",
    "C01_u8",
    "C01_i8",
    "C01_u16",
    "C01_i16",
    "C01_u32",
    "C01_i32",
    "C01_u32_i32_on_32_bit"
   ],
   "note": ""
  },
  {
   "property": "C02",
   "status": "proved",
   "theorems": [
    "C02_NonZeroU8",
    "C02_NonZeroI8",
    "C02_NonZeroU16",
    "C02_NonZeroI16",
    "C02_NonZeroU32",
    "C02_NonZeroI32",
    "C02_NonZeroUsize",
    "C02_NonZeroIsize",
    "C02_NonZeroU64",
    "C02_NonZeroI64",
    "C02_NonZero64_on_32_bit"
   ],
   "note": ""
  },
  {
   "property": "C03",
   "status": "proved",
   "theorems": [
    "C03_char_bijection",
    "C03_char_code_point_order"
   ],
   "note": ""
  },
  {
   "property": "C04",
   "status": "partial",
   "theorems": [
    "C04_char_out_of_range_partial",
    "C04_char_never_panics",
    "C04_char_rejects_refuted",
    "C04_char_rejects_partial",
    "C04_char_rejects_on_32_bit_partial"
   ],
   "note": "The full statement is false on 64-bit targets (refuted theorem: char::from_ordinal(2^32) is Some); proved for every ordinal below 2^32 and for 32-bit targets. Also proved: exactly which characters larger ordinals give, and that from_ordinal never panics."
  },
  {
   "property": "C05",
   "status": "proved",
   "theorems": [
    "C05_Option"
   ],
   "note": ""
  },
  {
   "property": "C06",
   "status": "proved",
   "theorems": [
    "C06_Result",
    "C06_Either"
   ],
   "note": ""
  },
  {
   "property": "C07",
   "status": "proved",
   "theorems": [
    "C07_Box",
    "C07_Ordering",
    "C07_Ordering_numbering",
    "C07_Infallible",
    "C07_Infallible_always_None"
   ],
   "note": ""
  },
  {
   "property": "C08",
   "status": "proved",
   "theorems": [
    "C08_array",
    "C08_array_last_varies_fastest"
   ],
   "note": ""
  },
  {
   "property": "C09",
   "status": "proved",
   "theorems": [
    "C09_tuple"
   ],
   "note": "No bound on the number of elements: impl_ordinal_for_tuple_n is proved lawful for every list of element types for which its ORDINAL_SIZE compiles (the crate emits 0 to 16; the macro itself panics from 27 elements on, modelled as not compiling)."
  },
  {
   "property": "C10",
   "status": "proved",
   "theorems": [
    "C10_struct"
   ],
   "note": ""
  },
  {
   "property": "C11",
   "status": "proved",
   "theorems": [
    "C11_enum"
   ],
   "note": ""
  },
  {
   "property": "C12",
   "status": "proved",
   "theorems": [
    "C12_enum",
    "C12_struct",
    "C12_tuple",
    "C12_array_as_tuple"
   ],
   "note": ""
  },
  {
   "property": "C13",
   "status": "proved",
   "theorems": [
    "C13_ordinals_agree_with_ord"
   ],
   "note": ""
  },
  {
   "property": "C14",
   "status": "proved",
   "theorems": [
    "C14_size_is_number_of_values",
    "C14_too_many_values_rejected",
    "C14_number_or_compile_error",
    "C14_counted"
   ],
   "note": ""
  },
  {
   "property": "C15",
   "status": "partial",
   "theorems": [
    "C15_small_types_accepted_refuted",
    "C15_small_nonempty_types_accepted_refuted",
    "C15_small_types_accepted_partial",
    "C15_which_types_compile_partial"
   ],
   "note": "False as stated: (u16,u16,u16,u16,u16,Infallible) and [[u16;5];0] have at most one value but do not compile (products are multiplied from the left; the element size of a zero-length array is computed). Proved: exact condition for compiling, and the full statement for types without empty fields/elements and zero-length arrays."
  },
  {
   "property": "C16",
   "status": "partial",
   "theorems": [
    "C16_never_returns_refuted",
    "C16_no_collisions_refuted",
    "C16_no_collisions_partial",
    "C16_compile_error_partial"
   ],
   "note": "False as stated: Option<Option<NonZeroUsize>> has more than usize::MAX values, its ordinal() returns, and with overflow checks off None and Some(Some(MAX)) share ordinal 0. Proved: no collisions for any type with overflow checks on; compile error in every build for primitives, tuples, structs, enums and boxes of them. C79 determines exactly which types with too many values compile and what their functions do."
  },
  {
   "property": "C17",
   "status": "proved",
   "theorems": [
    "C17_composed_bijection",
    "C17_from_ordinal_never_panics"
   ],
   "note": ""
  },
  {
   "property": "C18",
   "status": "proved",
   "theorems": [
    "C18_composed_rejects"
   ],
   "note": ""
  },
  {
   "property": "C19",
   "status": "partial",
   "theorems": [
    "C19_field_names_refuted",
    "C19_struct_names_partial",
    "C19_enum_names_partial",
    "C19_struct_exactly_reserved_partial",
    "C19_enum_exactly_reserved_partial"
   ],
   "note": "False as stated: a field called rem is captured by a generated variable, and fields called None, Some, Ok, Err cannot be bound by a pattern. Proved: exactly these five names fail (PropExact). Other items in scope are the subject of C73: constants, statics and unit/tuple structs with the name of a field, a redefined None at the derive site, macro hygiene."
  },
  {
   "property": "C20",
   "status": "proved",
   "theorems": [
    "C20_all_values"
   ],
   "note": ""
  },
  {
   "property": "C21",
   "status": "proved",
   "theorems": [
    "C21_all_values_iterator"
   ],
   "note": ""
  },
  {
   "property": "C22",
   "status": "proved",
   "theorems": [
    "C22_debug"
   ],
   "note": ""
  },
  {
   "property": "C23",
   "status": "proved",
   "theorems": [
    "C23_linearizable_register",
    "C23_sequential_calls"
   ],
   "note": ""
  },
  {
   "property": "C24",
   "status": "proved",
   "theorems": [
    "C24_weak_memory_decodes"
   ],
   "note": ""
  },
  {
   "property": "C25",
   "status": "proved",
   "theorems": [
    "C25_panics_exactly_on_illegal_orderings"
   ],
   "note": ""
  },
  {
   "property": "C26",
   "status": "proved",
   "theorems": [
    "C26_map_is_a_partial_map"
   ],
   "note": ""
  },
  {
   "property": "C27",
   "status": "partial",
   "theorems": [
    "C27_contains_key_exact_partial",
    "C27_contains_key_refuted",
    "C27_contains_key_partial",
    "C27_contains_key_present_partial"
   ],
   "note": "The full statement is false (refuted theorem: after inserting false, contains_key(true) is true though get(true) is None); proved: contains_key is true iff storage was allocated, hence true for every present key. Also proved: contains_key agrees with get on every key exactly if nothing was allocated or every key is present."
  },
  {
   "property": "C28",
   "status": "proved",
   "theorems": [
    "C28_one_request",
    "C28_lazy_allocation"
   ],
   "note": "C28_lazy_allocation: slots of the storage after any program. C28_one_request (PropAlloc.v): the allocator is asked once, for all slots, if some call may store something, and never otherwise; clone excepted (its requests are counted by C98_granted)."
  },
  {
   "property": "C29",
   "status": "proved",
   "theorems": [
    "C29_array_map_is_a_partial_map"
   ],
   "note": ""
  },
  {
   "property": "C30",
   "status": "proved",
   "theorems": [
    "C30_map_iteration",
    "C30_array_map_iteration"
   ],
   "note": ""
  },
  {
   "property": "C31",
   "status": "proved",
   "theorems": [
    "C31_map_iterators",
    "C31_array_map_iterators"
   ],
   "note": ""
  },
  {
   "property": "C32",
   "status": "proved",
   "theorems": [
    "C32_map_iter_mut",
    "C32_array_map_iter_mut",
    "C32_total_map_iter_mut",
    "C32_total_array_map_iter_mut"
   ],
   "note": ""
  },
  {
   "property": "C33",
   "status": "proved",
   "theorems": [
    "C33_map_drain",
    "C33_array_map_drain"
   ],
   "note": ""
  },
  {
   "property": "C34",
   "status": "proved",
   "theorems": [
    "C34_map_entry",
    "C34_array_map_entry"
   ],
   "note": ""
  },
  {
   "property": "C35",
   "status": "proved",
   "theorems": [
    "C35_map_from_iter",
    "C35_array_map_from_iter"
   ],
   "note": ""
  },
  {
   "property": "C36",
   "status": "proved",
   "theorems": [
    "C36_retain"
   ],
   "note": ""
  },
  {
   "property": "C37",
   "status": "proved",
   "theorems": [
    "C37_map_len",
    "C37_array_map_len"
   ],
   "note": ""
  },
  {
   "property": "C38",
   "status": "proved",
   "theorems": [
    "C38_map_clone",
    "C38_array_map_clone",
    "C38_set_clone",
    "C38_array_set_clone",
    "C38_set64_clone",
    "C38_total_map_clone",
    "C38_total_array_map_clone"
   ],
   "note": ""
  },
  {
   "property": "C39",
   "status": "proved",
   "theorems": [
    "C39_maps_agree"
   ],
   "note": ""
  },
  {
   "property": "C40",
   "status": "proved",
   "theorems": [
    "C40_map_size_hint",
    "C40_array_map_size_hint",
    "C40_set_size_hint"
   ],
   "note": ""
  },
  {
   "property": "C41",
   "status": "proved",
   "theorems": [
    "C41_total_map_new",
    "C41_total_array_map_new"
   ],
   "note": ""
  },
  {
   "property": "C42",
   "status": "proved",
   "theorems": [
    "C42_total_map_function",
    "C42_total_array_map_function"
   ],
   "note": ""
  },
  {
   "property": "C43",
   "status": "proved",
   "theorems": [
    "C43_total_map_len",
    "C43_total_array_map_len"
   ],
   "note": ""
  },
  {
   "property": "C44",
   "status": "partial",
   "theorems": [
    "C44_from_array_any_size_partial",
    "C44_from_array_too_long_partial",
    "C44_from_array_refuted",
    "C44_from_array_partial"
   ],
   "note": "The full statement is false (refuted theorem: from_array compiles with a wrong size; lookup then panics and len is wrong); proved when S equals ORDINAL_SIZE. Also proved: for every S, which lookups panic and what len is; iteration panics when S is too large."
  },
  {
   "property": "C45",
   "status": "proved",
   "theorems": [
    "C45_total_map_iterators",
    "C45_total_array_map_iterators"
   ],
   "note": ""
  },
  {
   "property": "C46",
   "status": "partial",
   "theorems": [
    "C46_into_iter_array_never_exact_partial",
    "C46_set64_hint",
    "C46_into_iter_array_refuted",
    "C46_total_map_hints_partial",
    "C46_total_array_map_hints_partial"
   ],
   "note": "The full statement is false (refuted theorem: IntoIterArray of the total array map has size_hint (0, None)); proved for the others. Includes Iter64 of the sets. Also proved: that hint is inexact at every position of every map."
  },
  {
   "property": "C47",
   "status": "proved",
   "theorems": [
    "C47_map",
    "C47_zip",
    "C47_total_map_values",
    "C47_total_array_map_values"
   ],
   "note": ""
  },
  {
   "property": "C48",
   "status": "proved",
   "theorems": [
    "C48_as_ref",
    "C48_as_mut"
   ],
   "note": ""
  },
  {
   "property": "C49",
   "status": "proved",
   "theorems": [
    "C49_builder",
    "C49_try_new",
    "C49_new",
    "C49_map",
    "C49_zip",
    "C49_array_from_iter",
    "C49_array_from_ordinal"
   ],
   "note": ""
  },
  {
   "property": "C50",
   "status": "proved",
   "theorems": [
    "C50_set_is_a_set"
   ],
   "note": ""
  },
  {
   "property": "C51",
   "status": "proved",
   "theorems": [
    "C51_array_set_is_a_set"
   ],
   "note": "OrdinalArraySet has no iter method; the elements are observed through contains and Debug."
  },
  {
   "property": "C52",
   "status": "proved",
   "theorems": [
    "C52_set64_is_a_set"
   ],
   "note": ""
  },
  {
   "property": "C53",
   "status": "partial",
   "theorems": [
    "C53_empty_type_partial",
    "C53_set_iteration_refuted",
    "C53_set_iteration_partial",
    "C53_listable"
   ],
   "note": "The full statement is false (refuted theorem: for an element type without values iter() panics under debug assertions); proved for every type with at least one value, and for every type without debug assertions. Also proved: for such types the panic happens in every reachable set."
  },
  {
   "property": "C54",
   "status": "proved",
   "theorems": [
    "C54_set64_iteration",
    "C54_listable"
   ],
   "note": ""
  },
  {
   "property": "C55",
   "status": "partial",
   "theorems": [
    "C55_all_exact_partial",
    "C55_all_refuted",
    "C55_all_partial"
   ],
   "note": "The full statement is false (refuted theorem: with exactly 64 values all() overflows the shift: panic, or the empty set without overflow checks); proved for fewer than 64 values. Also proved: the outcome of all() for every number of values."
  },
  {
   "property": "C56",
   "status": "proved",
   "theorems": [
    "C56_equality"
   ],
   "note": ""
  },
  {
   "property": "C57",
   "status": "partial",
   "theorems": [
    "C57_huge_type_partial",
    "C57_set_from_iter_refuted",
    "C57_set_from_iter_partial",
    "C57_array_set_from_iter",
    "C57_set64_from_iter"
   ],
   "note": "OrdinalArraySet and OrdinalSet64: proved. OrdinalSet: the full statement is false for more than usize::MAX-64 values (refuted theorem, same cause as C59); proved up to that size. Also proved: above that size every insert panics."
  },
  {
   "property": "C58",
   "status": "partial",
   "theorems": [
    "C58_empty_type_partial",
    "C58_empty_type_refuted",
    "C58_new_set_prints_partial"
   ],
   "note": "The full statement is false (refuted theorem: iter() and Debug of an empty OrdinalSet panic for an element type without values under debug assertions); proved otherwise. Also proved: for such types the panic happens in every reachable set."
  },
  {
   "property": "C59",
   "status": "partial",
   "theorems": [
    "C59_huge_type_partial",
    "C59_insert_refuted",
    "C59_insert_partial"
   ],
   "note": "The full statement is false (refuted theorem: insert panics for NonZeroUsize, checked_add(64) overflows); proved up to usize::MAX-64 values. Also proved: above that size every insert panics."
  },
  {
   "property": "C60",
   "status": "proved",
   "theorems": [
    "C60_sets_agree"
   ],
   "note": ""
  },
  {
   "property": "C61",
   "status": "partial",
   "theorems": [
    "C61_default_any_size_partial",
    "C61_word_count_is_least",
    "C61_default_refuted",
    "C61_other_sizes_partial"
   ],
   "note": "Least word count proved. The last part is false literally (refuted theorem: Default compiles with any S); proved: new, contains, insert, FromIterator and Debug are compile errors for every other S. Also proved: Default compiles for every S."
  },
  {
   "property": "C62",
   "status": "partial",
   "theorems": [
    "C62_empty_type_partial",
    "C62_map_debug",
    "C62_array_map_debug",
    "C62_set_debug_refuted",
    "C62_set_debug_partial",
    "C62_array_set_debug",
    "C62_set64_debug_partial",
    "C62_total_map_debug",
    "C62_total_array_map_debug"
   ],
   "note": "Maps and iterators: proved. Sets: the full statement is false for element types without values under debug assertions (refuted theorem); proved otherwise. Also proved: for such types the panic happens in every reachable set."
  },
  {
   "property": "C63",
   "status": "proved",
   "theorems": [
    "C63_wait_free",
    "C63_wait_free_weak_memory"
   ],
   "note": ""
  },
  {
   "property": "C64",
   "status": "proved",
   "theorems": [
    "C64_map_programs",
    "C64_total_map_programs",
    "C64_set_programs",
    "C64_new_and_collect",
    "C64_total_constructors",
    "C64_total_map_and_as_ref",
    "C64_retain",
    "C64_mutable_iteration",
    "C64_ordinal_values",
    "C64_iterator_debug",
    "C64_atomic",
    "C64_provided_impls",
    "C64_derived_impls",
    "C64_every_provided_type"
   ],
   "note": "any_impl puts no condition on the impl except that its own functions finish without UB; in the program theorems each operation may use a different impl. Within one call the impl is a function (its answers do not change during a single call)."
  },
  {
   "property": "C65",
   "status": "proved",
   "theorems": [
    "C65_all_values_any_impl"
   ],
   "note": "No law is assumed of the Ordinal impl."
  },
  {
   "property": "C66",
   "status": "proved",
   "theorems": [
    "C66_any_double_ended",
    "C66_map",
    "C66_array_map",
    "C66_total_map",
    "C66_total_array_map",
    "C66_set",
    "C66_set64",
    "C66_all_values"
   ],
   "note": "std's default method bodies are modelled in ModelStd.v as a trusted contract; closures are pure. OrdinalSet's iterator is taken where OrdinalSet::iter returns (C53)."
  },
  {
   "property": "C67",
   "status": "proved",
   "theorems": [
    "C67_Option",
    "C67_Result",
    "C67_Either",
    "C67_bool",
    "C67_Ordering",
    "C67_Infallible",
    "C67_Box",
    "C67_tuple_size",
    "C67_tuple",
    "C67_field_names",
    "C67_single_variant"
   ],
   "note": "The hypotheses only say that the payload types are lawful and the type has an ORDINAL_SIZE."
  },
  {
   "property": "C68",
   "status": "proved",
   "theorems": [
    "C68_variants_added_at_the_end"
   ],
   "note": "The hypotheses say that payload types are lawful and both enums have an ORDINAL_SIZE."
  },
  {
   "property": "C69",
   "status": "proved",
   "theorems": [
    "C69_map",
    "C69_array_map",
    "C69_total_map",
    "C69_total_array_map",
    "C69_set",
    "C69_set64"
   ],
   "note": "The size conditions of the statement are those of C53 and C57; OrdinalArraySet has no iterator."
  },
  {
   "property": "C70",
   "status": "proved",
   "theorems": [
    "C70_total_maps_agree",
    "C70_try_new_agree"
   ],
   "note": "Programs range over every operation of TotalMachine.v."
  },
  {
   "property": "C71",
   "status": "proved",
   "theorems": [
    "C71_product",
    "C71_sum",
    "C71_product_returns",
    "C71_sum_returns",
    "C71_product_parts",
    "C71_sum_parts",
    "C71_expr",
    "C71_const_expr",
    "C71_eval"
   ],
   "note": "Covers operands derive never passes today (several constants, zero constants)."
  },
  {
   "property": "C72",
   "status": "partial",
   "theorems": [
    "C72_variant_names_refuted",
    "C72_variant_names_partial"
   ],
   "note": "False as stated (refuted theorem): with a variant called ORDINAL_SIZE the generated Self::ORDINAL_SIZE is the variant and the impl does not compile. Proved: every other list of names gives the same impl."
  },
  {
   "property": "C73",
   "status": "partial",
   "theorems": [
    "C73_inherent_refuted",
    "C73_scope_refuted",
    "C73_check_bypassed_refuted",
    "C73_enum_check_bypassed_refuted",
    "C73_struct_partial",
    "C73_enum_partial",
    "C73_clash_partial",
    "C73_enum_clash_partial",
    "C73_struct_inherent_partial",
    "C73_enum_inherent_partial"
   ],
   "note": "False as stated (refuted theorems): an inherent const ORDINAL_SIZE = 0 makes from_ordinal return None for every ordinal; an item in scope called None, or like a local variable or field of the generated code, is a compile error; for a type with too many values an inherent constant takes the place of the size check, so that ordinal() compiles and, without overflow checks, gives two values the same number. Proved: exactly which surroundings break the law, and what happens in each case. Name lookup itself (call-site hygiene, inherent before trait constants, patterns not shadowing constants) is rustc's and trusted."
  },
  {
   "property": "C74",
   "status": "proved",
   "theorems": [
    "C74_struct",
    "C74_tuple",
    "C74_enum",
    "C74_enum_aborts",
    "C74_unit_enum"
   ],
   "note": "Exact condition for every declaration."
  },
  {
   "property": "C75",
   "status": "proved",
   "theorems": [
    "C75_one_request",
    "C75_lazy_allocation"
   ],
   "note": "Holds for every Ordinal impl, lawful or not. C75_one_request (PropAlloc.v): the allocator is asked once, for all words, if something is inserted, and never otherwise; clone and collecting excepted (counted by C98_granted_sets)."
  },
  {
   "property": "C76",
   "status": "proved",
   "theorems": [
    "C76_all_values",
    "C76_map",
    "C76_array_map",
    "C76_total_map",
    "C76_total_array_map",
    "C76_set",
    "C76_set64"
   ],
   "note": "Explicit discriminants are excluded because derived Ord follows them and the numbering does not (C13). The iterator of OrdinalSet panics for a type without values with debug assertions (C58); the statement is about the iterators that exist."
  },
  {
   "property": "C77",
   "status": "proved",
   "theorems": [
    "C77_map_drain",
    "C77_array_map_drain",
    "C77_map_clear",
    "C77_array_map_clear",
    "C77_retain",
    "C77_builder"
   ],
   "note": "Entries are dropped by drop glue outside the crate only where the crate does not do it itself; see DESIGN.md."
  },
  {
   "property": "C78",
   "status": "proved",
   "theorems": [
    "C78_map",
    "C78_array_map",
    "C78_set",
    "C78_array_set",
    "C78_set64"
   ],
   "note": "OrdinalSet is limited to enumerable sizes, where it can be built at all (C57_set_from_iter_refuted)."
  },
  {
   "property": "C79",
   "status": "proved",
   "theorems": [
    "C79_ordinal_same_for_all_values",
    "C79_from_same_for_all_numbers",
    "C79_ordinal_available",
    "C79_from_available",
    "C79_all_others_rejected",
    "C79_size_is_enough",
    "C79_ordinal_returns_or_panics",
    "C79_from_returns",
    "C79_decode",
    "C79_encode"
   ],
   "note": "Models instantiation: the compiler evaluates every constant mentioned in the body of each instantiated function. That rustc does so is part of the trusted base (DESIGN.md 4.4)."
  },
  {
   "property": "C80",
   "status": "partial",
   "theorems": [
    "C80_same_steps",
    "C80_all_values",
    "C80_set64",
    "C80_total_map_exact",
    "C80_pairs_refuted",
    "C80_sparse_pairs_refuted",
    "C80_total_pairs_partial",
    "C80_sparse_pairs_partial",
    "C80_lawful_pairs_partial",
    "C80_same_steps_set_and_drain",
    "C80_set_iter",
    "C80_drain_loses_nothing",
    "C80_drain_empties_refuted",
    "C80_iter_mut_same_step",
    "C80_iter_mut"
   ],
   "note": "Holds for all_values, OrdinalSet64 and set::Iter. False for the map iterators: OrdinalEnumerate::next advances the wrapped iterator before from_ordinal and self.next after it, so each failing next makes all later keys one too low, at both ends (C80_pairs_refuted, C80_sparse_pairs_refuted; C80_total_map_exact gives the exact ordinal asked for, for any item type, so also for slots of mutable iterators). Drain loses no value, but a map drained to the end keeps the values whose calls failed (C80_drain_empties_refuted). Pairs are right as long as no next has failed, and always with a lawful impl. The failures need an impl that breaks the documented law. IterMut has the outcomes of Iter and hands out no slot twice (C80_iter_mut, PropUnwind.v). Drain's destructor is C82."
  },
  {
   "property": "C81",
   "status": "partial",
   "theorems": [
    "C81_sized_map",
    "C81_sized_map_from",
    "C81_sized_array_map",
    "C81_sized_array_map_from",
    "C81_sized_total",
    "C81_sized_total_array",
    "C81_sized_from_array",
    "C81_sized_set",
    "C81_sized_array_set",
    "C81_sized_array_set_default",
    "C81_sized_set64",
    "C81_sized_atomic",
    "C81_too_many",
    "C81_no_map_from",
    "C81_no_array_map",
    "C81_no_array_map_from",
    "C81_no_total",
    "C81_no_total_array",
    "C81_no_set",
    "C81_no_array_set",
    "C81_no_set64",
    "C81_map_stays_empty",
    "C81_array_set_unusable",
    "C81_atomic_partial",
    "C81_atomic_works",
    "C81_atomic_threads_partial",
    "C81_load_refuted",
    "C81_exchange_refuted",
    "C81_array_get_safe",
    "C81_array_insert_partial",
    "C81_array_insert_there",
    "C81_array_iteration_partial",
    "C81_array_programs_partial",
    "C81_from_follows",
    "C81_array_slots_only",
    "C81_total_len_needs_size",
    "C81_array_refuted"
   ],
   "note": "Refuted without overflow checks for AtomicOrdinal (load returns a value never stored, compare_exchange succeeds with the wrong old value) and for OrdinalTotalArrayMap::from_array (two keys share a slot): Option<Option<NonZeroUsize>> compiles and the ordinal of its last value wraps to 0. Proved: the other collections in every build; AtomicOrdinal and from_array with overflow checks. Which constants a function mentions (needs_*) is read off the source by hand. For from_array whole programs are covered: exactly which compile, which panic, and the answers of the others. AtomicOrdinal: programs of one thread, and of several threads under every schedule."
  },
  {
   "property": "C82",
   "status": "proved",
   "theorems": [
    "C82_same_destructor",
    "C82_no_value_lost",
    "C82_returned",
    "C82_unwound",
    "C82_never_fails",
    "C82_fails_once",
    "C82_clear"
   ],
   "note": "from_ordinal is any function that returns or panics (safe). The contents of a key handed out after a failure can be one too low (C80); this is about the values and the slots. A destructor that panics during unwinding aborts the process, as std documents for Drop; Example fails_twice has such a case."
  },
  {
   "property": "C83",
   "status": "proved",
   "theorems": [
    "C83_checked_once",
    "C83_no_bound_added",
    "C83_no_late_error",
    "C83_instances_lawful"
   ],
   "note": "Bounds are of the form T: Ordinal for a type parameter. C83_no_bound_added: struct Wrap<T>(T) without the bound is rejected, although std's derives would add it."
  },
  {
   "property": "C84",
   "status": "proved",
   "theorems": [
    "C84_endless_rejected",
    "C84_cycle_rejected",
    "C84_finite_accepted",
    "C84_limit",
    "C84_cycles_only"
   ],
   "note": "Const evaluation is modelled as unfolding to a depth; see the trusted base."
  },
  {
   "property": "C85",
   "status": "proved",
   "theorems": [
    "C85_map",
    "C85_array_map",
    "C85_total_map",
    "C85_array_total_map",
    "C85_set",
    "C85_array_set",
    "C85_set64",
    "C85_atomic",
    "C85_array_ordinal",
    "C85_array_from_ordinal",
    "C85_try_new",
    "C85_array_try_new",
    "C85_total_map_map",
    "C85_retain",
    "C85_map_model",
    "C85_array_map_model",
    "C85_total_map_model",
    "C85_array_total_map_model",
    "C85_set_model",
    "C85_array_set_model",
    "C85_set64_model",
    "C85_atomic_model",
    "C85_array_ordinal_model",
    "C85_array_from_ordinal_model",
    "C85_try_new_model",
    "C85_array_try_new_model",
    "C85_retain_model"
   ],
   "note": "The table is in SpecCalls.v. The _model theorems tie the dialogues to the earlier models."
  },
  {
   "property": "C86",
   "status": "proved",
   "theorems": [
    "C86_map",
    "C86_array_map",
    "C86_total_map",
    "C86_array_total_map",
    "C86_set",
    "C86_array_set",
    "C86_set64",
    "C86_atomic",
    "C86_array_ordinal",
    "C86_array_from_ordinal",
    "C86_try_new",
    "C86_array_try_new",
    "C86_total_map_map",
    "C86_retain"
   ],
   "note": "Slots and sizes at most usize::MAX, as for every Rust array or Vec."
  },
  {
   "property": "C87",
   "status": "proved",
   "theorems": [
    "C87_map",
    "C87_array_map",
    "C87_total_map",
    "C87_array_total_map",
    "C87_try_new",
    "C87_array_try_new",
    "C87_total_map_map",
    "C87_retain",
    "C87_set_contains",
    "C87_array_set_contains",
    "C87_set64_contains",
    "C87_set_insert_differs",
    "C87_set64_insert_differs",
    "C87_set_iter_differs",
    "C87_compare_exchange_differs"
   ],
   "note": "The positive part is C87_map ... C87_set64_contains, the negative part the four _differs theorems."
  },
  {
   "property": "C88",
   "status": "proved",
   "theorems": [
    "C88_unit_tests",
    "C88_doc_tests",
    "C88_more_than_64",
    "C88_error_counts"
   ],
   "note": "Model of the test code in ModelTests.v. assert_eq! uses the derived PartialEq and PartialOrd, modelled by Cmp. cfg!(target_pointer_width) branches that are not taken are not instantiated (DESIGN.md, section 4)."
  },
  {
   "property": "C89",
   "status": "proved",
   "theorems": [
    "C89_test_ordinal",
    "C89_complete_list",
    "C89_lawful_types_pass",
    "C89_char_unseen",
    "C89_incomplete_list"
   ],
   "note": "The list is assumed to have at most usize::MAX elements, as any Vec of a sized type with values has."
  },
  {
   "property": "C90",
   "status": "proved",
   "theorems": [
    "C90_maps",
    "C90_set_insert",
    "C90_set_iter",
    "C90_set64_iter",
    "C90_project_maps",
    "C90_project_array_set",
    "C90_project_small",
    "C90_project_large"
   ],
   "note": "HashMap, HashSet, sort and dedup are modelled by their contracts (association lists, insertion sort)."
  },
  {
   "property": "C91",
   "status": "proved",
   "theorems": [
    "C91_calls",
    "C91_one_variable",
    "C91_weak_memory",
    "C91_wait_free",
    "C91_wait_free_weak_memory",
    "C91_lawful",
    "C91_too_many_values"
   ],
   "note": ""
  },
  {
   "property": "C92",
   "status": "proved",
   "theorems": [
    "C92_same_as_variables",
    "C92_dies_only_in_refused_calls",
    "C92_values_were_written"
   ],
   "note": "The memory model is a parameter: a predicate on the skeleton of an execution (threads, locations, actions with orderings, reads-from). It must not look at values, which no axiomatic model does."
  },
  {
   "property": "C93",
   "status": "proved",
   "theorems": [
    "C93_texts",
    "C93_errors_passed_on",
    "C93_any_sink",
    "C93_map",
    "C93_array_map",
    "C93_keys",
    "C93_total_map",
    "C93_total_array_map",
    "C93_set",
    "C93_array_set",
    "C93_set64",
    "C93_values",
    "C93_values_errors",
    "C93_atomic"
   ],
   "note": "The builders of core::fmt are modelled from their documented behaviour (the sources are not in the sandbox). Debug implementations are arbitrary programs that write, react to refused writes, fail or panic; they have no state besides."
  },
  {
   "property": "C94",
   "status": "proved",
   "theorems": [
    "C94_map",
    "C94_array_map",
    "C94_total_map",
    "C94_total_array_map",
    "C94_into_iter",
    "C94_into_iter_array",
    "C94_total_into_iter",
    "C94_total_into_iter_array",
    "C94_pure",
    "C94_default"
   ],
   "note": "Clone and drop are arbitrary stateful functions that return or panic. That Box<[T]>, [T; N] and the owning iterators of std clone from the front and drop the clones on a panic is an assumption about std. Panics in V::default: what is dropped then is C49 (array maps); the boxed map's partial Vec is not modelled."
  },
  {
   "property": "C95",
   "status": "proved",
   "theorems": [
    "C95_map_keys",
    "C95_map_first",
    "C95_map_panics",
    "C95_map_programs",
    "C95_map_entries",
    "C95_map_len",
    "C95_map_is_empty",
    "C95_map_clear",
    "C95_array_map_len",
    "C95_array_map_keys",
    "C95_total_map_keys",
    "C95_iterators",
    "C95_sets",
    "C95_set_first_insert",
    "C95_set_from_iter",
    "C95_set_iter",
    "C95_set_iter_all",
    "C95_schedules",
    "C95_to_the_end",
    "C95_set_constant_refuted"
   ],
   "note": "ModelCost.v gives counted versions of the functions; their outcomes are proved equal to the model's functions, and the steps are bounded. C95_set_constant_refuted shows that set.rs:20 does not hold literally."
  },
  {
   "property": "C96",
   "status": "proved",
   "theorems": [
    "C96_same_calls",
    "C96_left_behind",
    "C96_map_programs",
    "C96_array_map_programs",
    "C96_total_map_programs",
    "C96_total_array_map_programs",
    "C96_set_programs",
    "C96_array_set_programs",
    "C96_set64_programs",
    "C96_contains_key_sees_storage"
   ],
   "note": "ModelCatch.v gives each call with the object left behind; C96_same_calls ties it to the other model files. clear, drain and retain are included in programs (they do not call ordinal); what they leave behind when from_ordinal or a closure panics is in C80 and C82. Programs over OrdinalMap leave out contains_key; C96_contains_key_sees_storage says why. For sets the hypotheses on the size are those of C50 and C52."
  },
  {
   "property": "C97",
   "status": "proved",
   "theorems": [
    "C97_default",
    "C97_panics",
    "C97_maps_no_ub",
    "C97_sets_no_ub",
    "C97_try_new_conserves",
    "C97_new_conserves",
    "C97_arrays_right",
    "C97_arrays_wrong",
    "C97_total_map",
    "C97_total_map_lookup",
    "C97_total_map_right",
    "C97_keys",
    "C97_sets_sound",
    "C97_set",
    "C97_array_set",
    "C97_set64",
    "C97_debug_past"
   ],
   "note": "An override can obtain an OrdinalValues<Self> only from another implementation, through subtyping (OrdinalValues is covariant in its parameter, and for<'a> fn(&'a ()) and fn(&'static ()) can have separate implementations), and may call next on it before returning it; so ranges lo..hi with lo <= hi arise. The theorems about sets and keys assume lo <= hi <= n, those about maps nothing. Each ..._with function is given the result of its own call of all_values, so an override that returns something else each time is covered. The dropped values of the boxed OrdinalTotalMap are those of a Vec and not tracked here."
  },
  {
   "property": "C98",
   "status": "proved",
   "theorems": [
    "C98_map_call",
    "C98_total_map_call",
    "C98_set_call",
    "C98_try_new",
    "C98_new",
    "C98_from_iter",
    "C98_map_programs",
    "C98_total_map_programs",
    "C98_set_programs",
    "C98_lawful_maps",
    "C98_lawful_total_maps",
    "C98_lawful_sets",
    "C98_too_large",
    "C98_granted",
    "C98_granted_sets",
    "C98_small_sets"
   ],
   "note": "In ModelAlloc.v, with the assumptions about std listed in its header. Collecting: the elements come from a list, as elsewhere in the model of from_iter. A panic of ordinal or of the callback after the request was granted is that of the call with unlimited memory (C96). The Box::new in from_ordinal of Box<T> (boxed.rs) always gets its memory."
  },
  {
   "property": "C99",
   "status": "proved",
   "theorems": [
    "C99_same_ordinal",
    "C99_ordinal_tells_value",
    "C99_same_from_ordinal",
    "C99_sizes",
    "C99_same_size",
    "C99_same_values",
    "C99_compiles_for_wider",
    "C99_one_same_value",
    "C99_one_same_value_portable",
    "C99_same_value_symmetric",
    "C99_nonzero_isize_differs"
   ],
   "note": "same_value (SpecTarget.v) is defined by recursion on the type and mentions no impl; C99_one_same_value and C99_same_value_symmetric show that it relates values one to one."
  },
  {
   "property": "C100",
   "status": "proved",
   "theorems": [
    "C100_ordinal_is_rank",
    "C100_only_numbering",
    "C100_discriminants_differ"
   ],
   "note": "C100_discriminants_differ shows why explicit discriminants are excluded in the statement."
  },
  {
   "property": "C101",
   "status": "proved",
   "theorems": [
    "C101_map",
    "C101_array_map",
    "C101_set",
    "C101_array_set",
    "C101_set64"
   ],
   "note": "C78 has lawful keys only; a wrong program that ignored a panic of insert while collecting a set was not noticed before this property was added."
  },
  {
   "property": "C102",
   "status": "proved",
   "theorems": [
    "C102_map",
    "C102_array_map",
    "C102_total_map",
    "C102_total_array_map",
    "C102_collect",
    "C102_collect_array",
    "C102_into_iter"
   ],
   "note": "SpecLedger.v has the accounts. Programs that abort or whose operation does not exist for the type (catch_run = None) are not covered. Arguments of a call that panics are dropped by the caller's frame and are not in the books."
  },
  {
   "property": "C103",
   "status": "proved",
   "theorems": [
    "C103_auto_traits"
   ],
   "note": "The rules for the types of the standard library (references, Box, slice::Iter, vec::IntoIter, ...) are taken from its documentation. UnwindSafe and RefUnwindSafe are left out."
  },
  {
   "property": "C104",
   "status": "proved",
   "theorems": [
    "C104_subtypes"
   ],
   "note": "Subtyping of a struct is taken field by field; the compiler computes a variance per parameter, which comes to the same."
  },
  {
   "property": "C105",
   "status": "proved",
   "theorems": [
    "C105_maps",
    "C105_array_maps",
    "C105_total_maps",
    "C105_total_array_maps",
    "C105_retain",
    "C105_map",
    "C105_iterators",
    "C105_sets",
    "C105_array_sets",
    "C105_set64",
    "C105_set64_all",
    "C105_checked_sets",
    "C105_checked_set64"
   ],
   "note": "The exceptions for sets are shown to be real by examples. Ordinals themselves: C99."
  },
  {
   "property": "C106",
   "status": "proved",
   "theorems": [
    "C106_unwind_safety"
   ],
   "note": "The rules for the types of the standard library (references, Box, slice, vector and array iterators, atomics) are contracts in DESIGN.md section 4. Whether a type is UnwindSafe says nothing about what a caught panic leaves behind; for that see C80, C82, C96."
  },
  {
   "property": "C107",
   "status": "proved",
   "theorems": [
    "C107_map",
    "C107_array_map",
    "C107_total_map",
    "C107_total_array_map",
    "C107_abort"
   ],
   "note": "ModelLife.v keeps a log of all destructors started; life_account of SpecLife.v says per operation and outcome which values are given, taken and destroyed. Keys have no destructor."
  },
  {
   "property": "C108",
   "status": "proved",
   "theorems": [
    "C108_collect",
    "C108_collect_array",
    "C108_try_new",
    "C108_try_new_array",
    "C108_into_iter",
    "C108_map_life",
    "C108_array_map_life",
    "C108_total_map_life",
    "C108_total_array_map_life"
   ],
   "note": "The exception for the array builder is part of the statement; C108_leak_case shows it happen, next to the heap map where it does not."
  },
  {
   "property": "C109",
   "status": "proved",
   "theorems": [
    "C109_map",
    "C109_array_map",
    "C109_total_map",
    "C109_total_array_map"
   ],
   "note": "Trace-exact refinement by an independent specification (SpecLifeRun.v) of the models with panicking destructors of C107; C109_map excludes contains_key, whose answer depends on the storage (C27), and retain, which OrdinalMap has not."
  },
  {
   "property": "C110",
   "status": "proved",
   "theorems": [
    "C110_collect",
    "C110_collect_array",
    "C110_try_new",
    "C110_try_new_array",
    "C110_into_iter",
    "C110_map_life",
    "C110_array_map_life",
    "C110_total_map_end",
    "C110_total_array_map_end"
   ],
   "note": "Specification in SpecLifeEnds.v. Keys have no destructors here (DESIGN section 5)."
  },
  {
   "property": "C111",
   "status": "proved",
   "theorems": [
    "C111_map",
    "C111_array_map"
   ],
   "note": "C111_map, C111_array_map: the run of the model of the code equals the run of SpecKeyLife.v for both compiler behaviours; examples with panicking keys, values and ordinals and one that aborts."
  },
  {
   "property": "C112",
   "status": "proved",
   "theorems": [
    "C112_any_implementation_linearizable",
    "C112_any_implementation_weak_memory",
    "C112_any_implementation_wait_free",
    "C112_any_implementation_wait_free_weak_memory"
   ],
   "note": "C23, C24 and C63 without their assumption that Ordinal is lawful. Implementations are functions here (an implementation with state of its own is outside)."
  },
  {
   "property": "C113",
   "status": "proved",
   "theorems": [
    "C113_set",
    "C113_array_set",
    "C113_set64",
    "C113_calm"
   ],
   "note": "For any boom (the destructor), any list of calls with another panicking version of the lawful implementation in each. C113_calm shows that the specification reduces to that of C50-C52 when nothing panics."
  },
  {
   "property": "C114",
   "status": "proved",
   "theorems": [
    "C114_total_map",
    "C114_total_array_map",
    "C114_collect",
    "C114_collect_array",
    "C114_into_iter",
    "C114_map_life",
    "C114_array_map_life"
   ],
   "note": "Making and mapping total maps is C115."
  },
  {
   "property": "C115",
   "status": "proved",
   "theorems": [
    "C115_map",
    "C115_map_values",
    "C115_try_new",
    "C115_try_new_array",
    "C115_default",
    "C115_default_array",
    "C115_as_ref"
   ],
   "note": "Destructors of closures and of errors are taken to do nothing; zip calls no code of the client and is covered by C47 and C49."
  },
  {
   "property": "C116",
   "status": "proved",
   "theorems": [
    "C116_call",
    "C116_new",
    "C116_program",
    "C116_number",
    "C116_nothing_lost"
   ],
   "note": "Seen from one thread: a call looks at the cell at most once, so other threads are the content it finds. Destructors run by other threads are not in its log."
  },
  {
   "property": "C117",
   "status": "proved",
   "theorems": [
    "C117_struct",
    "C117_tuple",
    "C117_enum",
    "C117_struct_in_range",
    "C117_tuple_in_range",
    "C117_enum_in_range",
    "C117_struct_out_of_range",
    "C117_tuple_out_of_range",
    "C117_enum_out_of_range"
   ],
   "note": "The from_ordinal of a field is taken to destroy nothing itself; C119 is without this assumption."
  },
  {
   "property": "C118",
   "status": "proved",
   "theorems": [
    "C118_array",
    "C118_in_range",
    "C118_out_of_range"
   ],
   "note": "The from_ordinal of an element is taken to destroy nothing itself; C119 is without this assumption."
  },
  {
   "property": "C119",
   "status": "proved",
   "theorems": [
    "C119_struct",
    "C119_tuple",
    "C119_enum",
    "C119_array"
   ],
   "note": "C117 and C118 without the assumption that from_ordinal of parts destroys nothing; the sizes of parts are constants."
  }
 ]
}