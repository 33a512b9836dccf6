{
 "claims": [
  {
   "property": "C01",
   "status": "proved",
   "theorems": [
    "C01_map_history",
    "C01_map_history_from"
   ],
   "note": "Proved in full."
  },
  {
   "property": "C02",
   "status": "proved",
   "theorems": [
    "C02_insert"
   ],
   "note": "Proved in full."
  },
  {
   "property": "C03",
   "status": "proved",
   "theorems": [
    "C03_remove"
   ],
   "note": "Proved in full."
  },
  {
   "property": "C04",
   "status": "proved",
   "theorems": [
    "C04_lookup_agrees"
   ],
   "note": "Proved in full."
  },
  {
   "property": "C05",
   "status": "proved",
   "theorems": [
    "C05_len"
   ],
   "note": "Proved in full."
  },
  {
   "property": "C06",
   "status": "proved",
   "theorems": [
    "C06_iter_order",
    "C06_iter_history_free"
   ],
   "note": "Proved in full."
  },
  {
   "property": "C07",
   "status": "partial",
   "theorems": [
    "C07_keys_refuted",
    "C07_keys_partial",
    "C07_keys_exact"
   ],
   "note": "False for () leaves: Map<(), V>::keys() yields () on an empty map (C07_keys_refuted). Proved for key types without () (C07_keys_partial) and exactly for all (C07_keys_exact)."
  },
  {
   "property": "C08",
   "status": "proved",
   "theorems": [
    "C08_values_into_iter"
   ],
   "note": "Proved in full."
  },
  {
   "property": "C09",
   "status": "proved",
   "theorems": [
    "C09_map_iterators",
    "C09_set_iterators",
    "C09_double_ended"
   ],
   "note": "Proved in full."
  },
  {
   "property": "C10",
   "status": "proved",
   "theorems": [
    "C10_iter_mut"
   ],
   "note": "Proved in full."
  },
  {
   "property": "C11",
   "status": "proved",
   "theorems": [
    "C11_get_mut"
   ],
   "note": "Proved in full."
  },
  {
   "property": "C12",
   "status": "proved",
   "theorems": [
    "C12_retain"
   ],
   "note": "Proved in full."
  },
  {
   "property": "C13",
   "status": "proved",
   "theorems": [
    "C13_retain_unwind"
   ],
   "note": "Proved in full."
  },
  {
   "property": "C14",
   "status": "proved",
   "theorems": [
    "C14_map_empty",
    "C14_set_empty"
   ],
   "note": "Proved in full."
  },
  {
   "property": "C15",
   "status": "proved",
   "theorems": [
    "C15_entry"
   ],
   "note": "Proved in full."
  },
  {
   "property": "C16",
   "status": "proved",
   "theorems": [
    "C16_or_insert",
    "C16_or_insert_with",
    "C16_or_insert_with_key",
    "C16_or_default",
    "C16_and_modify"
   ],
   "note": "Proved in full."
  },
  {
   "property": "C17",
   "status": "proved",
   "theorems": [
    "C17_occupied",
    "C17_vacant"
   ],
   "note": "Proved in full."
  },
  {
   "property": "C18",
   "status": "proved",
   "theorems": [
    "C18_entry_programs"
   ],
   "note": "Proved in full."
  },
  {
   "property": "C19",
   "status": "proved",
   "theorems": [
    "C19_map_eq",
    "C19_map_eq_equivalence"
   ],
   "note": "Proved in full."
  },
  {
   "property": "C20",
   "status": "proved",
   "theorems": [
    "C20_map_clone",
    "C20_map_clone_eq",
    "C20_map_clone_history",
    "C20_set_clone",
    "C20_set_clone_history"
   ],
   "note": "Proved in full."
  },
  {
   "property": "C21",
   "status": "proved",
   "theorems": [
    "C21_map_ordered_keys",
    "C21_map_partial_cmp",
    "C21_map_cmp",
    "C21_map_partial_order",
    "C21_map_total_order",
    "C21_map_cmp_agree",
    "C21_map_operators",
    "C21_map_selectors"
   ],
   "note": "Proved in full."
  },
  {
   "property": "C22",
   "status": "proved",
   "theorems": [
    "C22_map_hash",
    "C22_set_hash",
    "C22_hash_keys"
   ],
   "note": "Proved in full."
  },
  {
   "property": "C23",
   "status": "proved",
   "theorems": [
    "C23_map_from_iter",
    "C23_set_from_iter"
   ],
   "note": "Proved in full."
  },
  {
   "property": "C24",
   "status": "proved",
   "theorems": [
    "C24_map_serialize",
    "C24_map_deserialize",
    "C24_map_deserialize_error",
    "C24_map_roundtrip",
    "C24_set_serialize",
    "C24_set_deserialize",
    "C24_set_deserialize_error",
    "C24_set_roundtrip"
   ],
   "note": "Proved in full."
  },
  {
   "property": "C25",
   "status": "proved",
   "theorems": [
    "C25_set_history",
    "C25_set_history_from",
    "C25_set_history_documented",
    "C25_set_history_exact"
   ],
   "note": "Proved in full."
  },
  {
   "property": "C26",
   "status": "partial",
   "theorems": [
    "C26_insert_refuted",
    "C26_insert_none_refuted",
    "C26_insert_partial",
    "C26_insert_exact"
   ],
   "note": "False for bool leaves and for Option::None (C26_insert_refuted, C26_insert_none_refuted). Proved for key types without bool and Option (C26_insert_partial) and exactly for all (C26_insert_exact)."
  },
  {
   "property": "C27",
   "status": "partial",
   "theorems": [
    "C27_remove_refuted",
    "C27_remove_partial",
    "C27_remove_exact"
   ],
   "note": "False for bool leaves (C27_remove_refuted). Proved for key types without bool (C27_remove_partial) and exactly for all (C27_remove_exact)."
  },
  {
   "property": "C28",
   "status": "partial",
   "theorems": [
    "C28_set_len",
    "C28_is_empty_refuted",
    "C28_is_empty_partial",
    "C28_is_empty_exact"
   ],
   "note": "len proved for all key types; is_empty is false for Option (C28_is_empty_refuted). Proved for key types without Option (C28_is_empty_partial) and exactly for all (C28_is_empty_exact)."
  },
  {
   "property": "C29",
   "status": "partial",
   "theorems": [
    "C29_retain_refuted",
    "C29_retain_partial",
    "C29_retain_exact"
   ],
   "note": "False for () leaves (C29_retain_refuted). Proved for key types without () (C29_retain_partial) and exactly for all (C29_retain_exact)."
  },
  {
   "property": "C30",
   "status": "proved",
   "theorems": [
    "C30_set_iter",
    "C30_set_iter_history_free"
   ],
   "note": "Proved in full."
  },
  {
   "property": "C31",
   "status": "proved",
   "theorems": [
    "C31_intersection",
    "C31_intersection_symmetric"
   ],
   "note": "Proved in full."
  },
  {
   "property": "C32",
   "status": "proved",
   "theorems": [
    "C32_set_eq"
   ],
   "note": "Proved in full."
  },
  {
   "property": "C33",
   "status": "partial",
   "theorems": [
    "C33_set_ordered_keys",
    "C33_set_total_order",
    "C33_set_cmp_refuted",
    "C33_set_cmp_partial",
    "C33_set_cmp_exact"
   ],
   "note": "False for #[key(bitset)] sets, which compare as integers (C33_set_cmp_refuted). Proved for the other unit-variant enums (C33_set_cmp_partial) and exactly for bitsets (C33_set_cmp_exact); total order and consistency with == proved for all."
  },
  {
   "property": "C34",
   "status": "proved",
   "theorems": [
    "C34_bitset_same_as_array",
    "C34_bitset_same_as_array_two",
    "C34_unwind_refuted"
   ],
   "note": "Predicates that unwind are excluded by the statement: there the two differ (C34_unwind_refuted)."
  },
  {
   "property": "C35",
   "status": "proved",
   "theorems": [
    "C35_raw_keys",
    "C35_raw_encoding",
    "C35_raw_roundtrip",
    "C35_raw_width",
    "C35_raw_limit"
   ],
   "note": "Proved in full."
  },
  {
   "property": "C36",
   "status": "partial",
   "theorems": [
    "C36_from_raw_refuted",
    "C36_from_raw_partial",
    "C36_from_raw_exact",
    "C36_operations_exact"
   ],
   "note": "False for raw values with bits that belong to no variant (C36_from_raw_refuted). Proved for raw values below 2^variants (C36_from_raw_partial) and exactly for all (C36_from_raw_exact, C36_operations_exact)."
  },
  {
   "property": "C37",
   "status": "proved",
   "theorems": [
    "C37_map_hints",
    "C37_set_hints",
    "C37_bool_exact",
    "C37_option_hash_exact"
   ],
   "note": "Proved in full."
  },
  {
   "property": "C38",
   "status": "partial",
   "theorems": [
    "C38_retain_unwind_refuted",
    "C38_retain_unwind_partial",
    "C38_retain_unwind_exact"
   ],
   "note": "False for () leaves (C38_retain_unwind_refuted). Proved for key types without () (C38_retain_unwind_partial) and exactly for all (C38_retain_unwind_exact), including which rejected elements remain."
  },
  {
   "property": "C39",
   "status": "proved",
   "theorems": [
    "C39_insert",
    "C39_remove",
    "C39_occupied_insert",
    "C39_occupied_remove",
    "C39_vacant_insert",
    "C39_retain",
    "C39_into_iter"
   ],
   "note": "Proved in full."
  },
  {
   "property": "C40",
   "status": "proved",
   "theorems": [
    "C40_set_as_map_keys"
   ],
   "note": "Proved in full."
  },
  {
   "property": "C41",
   "status": "partial",
   "theorems": [
    "C41_accepts",
    "C41_attribute_refuted",
    "C41_bitset_refuted",
    "C41_rejects_partial",
    "C41_accepts_exact",
    "C41_rejects_exact"
   ],
   "note": "False for unknown #[key(..)] attributes and for #[key(bitset)] on composite enums, both silently ignored (C41_attribute_refuted, C41_bitset_refuted). Proved for the shape of the input (C41_rejects_partial) and exactly (C41_accepts_exact, C41_rejects_exact)."
  },
  {
   "property": "C42",
   "status": "proved",
   "theorems": [
    "C42_unit_set_order"
   ],
   "note": "Proved in full."
  },
  {
   "property": "C43",
   "status": "proved",
   "theorems": [
    "C43_entry_unwind"
   ],
   "note": "Proved in full."
  },
  {
   "property": "C44",
   "status": "proved",
   "theorems": [
    "C44_map_debug",
    "C44_set_debug",
    "C44_intersection_debug"
   ],
   "note": "Proved in full."
  },
  {
   "property": "C45",
   "status": "proved",
   "theorems": [
    "C45_map_canonical",
    "C45_set_canonical"
   ],
   "note": "Proved in full."
  },
  {
   "property": "C46",
   "status": "proved",
   "theorems": [
    "C46_map_interchange",
    "C46_set_interchange"
   ],
   "note": "Proved in full."
  },
  {
   "property": "C47",
   "status": "proved",
   "theorems": [
    "C47_map_clones",
    "C47_set_clones",
    "C47_intersection_clone"
   ],
   "note": "Proved in full."
  },
  {
   "property": "C48",
   "status": "proved",
   "theorems": [
    "C48_buckets"
   ],
   "note": "Proved in full."
  },
  {
   "property": "C49",
   "status": "proved",
   "theorems": [
    "C49_map_order",
    "C49_set_order",
    "C49_map_rebuild",
    "C49_set_rebuild",
    "C49_insert_undo",
    "C49_remove_undo"
   ],
   "note": "Proved in full."
  },
  {
   "property": "C50",
   "status": "proved",
   "theorems": [
    "C50_map_traits",
    "C50_set_traits",
    "C50_unit_copy",
    "C50_bodies_typed",
    "C50_supertraits",
    "C50_into_iter_clone",
    "C50_operations",
    "C50_copy_is_clone"
   ],
   "note": "Proved in full."
  },
  {
   "property": "C51",
   "status": "proved",
   "theorems": [
    "C51_clear_drops",
    "C51_clear_exact"
   ],
   "note": "Proved in full."
  },
  {
   "property": "C52",
   "status": "proved",
   "theorems": [
    "C52_clone_calls",
    "C52_pure"
   ],
   "note": "Proved in full."
  },
  {
   "property": "C53",
   "status": "proved",
   "theorems": [
    "C53_option",
    "C53_enum",
    "C53_builtin",
    "C53_history"
   ],
   "note": "Proved in full."
  },
  {
   "property": "C54",
   "status": "proved",
   "theorems": [
    "C54_enum",
    "C54_option",
    "C54_option_contents_only",
    "C54_builtin",
    "C54_history"
   ],
   "note": "Proved in full."
  },
  {
   "property": "C55",
   "status": "proved",
   "theorems": [
    "C55_all_keys",
    "C55_map_listing",
    "C55_set_listing",
    "C55_map_bound",
    "C55_set_bound",
    "C55_map_program",
    "C55_set_program"
   ],
   "note": "Proved in full."
  },
  {
   "property": "C56",
   "status": "proved",
   "theorems": [
    "C56_map",
    "C56_map_any",
    "C56_set_any",
    "C56_set",
    "C56_map_ordered",
    "C56_set_ordered"
   ],
   "note": "Proved in full."
  },
  {
   "property": "C57",
   "status": "partial",
   "theorems": [
    "C57_refuted",
    "C57_exact",
    "C57_partial"
   ],
   "note": "False (C57_refuted): reserved names, hidden core names, constants named like generated variables, attributes on fields. Proved for programs that avoid them (C57_partial) and exactly for all (C57_exact)."
  },
  {
   "property": "C58",
   "status": "proved",
   "theorems": [
    "C58_eq_calls",
    "C58_pure"
   ],
   "note": "Proved in full."
  },
  {
   "property": "C59",
   "status": "proved",
   "theorems": [
    "C59_partial_cmp_calls",
    "C59_cmp_calls",
    "C59_hash_calls",
    "C59_pure"
   ],
   "note": "Proved in full."
  },
  {
   "property": "C60",
   "status": "proved",
   "theorems": [
    "C60_generated",
    "C60_raw",
    "C60_refused",
    "C60_modelled"
   ],
   "note": "Proved in full."
  },
  {
   "property": "C61",
   "status": "proved",
   "theorems": [
    "C61_map",
    "C61_set",
    "C61_map_eq",
    "C61_set_eq",
    "C61_enum"
   ],
   "note": "Proved in full."
  },
  {
   "property": "C62",
   "status": "proved",
   "theorems": [
    "C62_map",
    "C62_set"
   ],
   "note": "Proved in full."
  },
  {
   "property": "C63",
   "status": "proved",
   "theorems": [
    "C63_map",
    "C63_map_returns",
    "C63_set",
    "C63_set_returns",
    "C63_pure",
    "C63_map_deserialize",
    "C63_set_deserialize"
   ],
   "note": "Proved in full."
  },
  {
   "property": "C64",
   "status": "proved",
   "theorems": [
    "C64_program",
    "C64_ledger",
    "C64_nothing_left"
   ],
   "note": "Proved in full."
  },
  {
   "property": "C65",
   "status": "proved",
   "theorems": [
    "C65_map",
    "C65_set",
    "C65_intersection",
    "C65_map_text",
    "C65_set_text",
    "C65_intersection_text"
   ],
   "note": "Proved in full."
  },
  {
   "property": "C66",
   "status": "proved",
   "theorems": [
    "C66_map",
    "C66_into_iter",
    "C66_all_dropped",
    "C66_clone"
   ],
   "note": "Proved in full."
  },
  {
   "property": "C67",
   "status": "proved",
   "theorems": [
    "C67_program",
    "C67_answers",
    "C67_determined",
    "C67_bitset_choice"
   ],
   "note": "Proved in full."
  },
  {
   "property": "C68",
   "status": "proved",
   "theorems": [
    "C68_map",
    "C68_map_eq",
    "C68_set",
    "C68_set_eq",
    "C68_option_any",
    "C68_hash_any",
    "C68_sound",
    "C68_set_sound",
    "C68_lists",
    "C68_set_lists"
   ],
   "note": "Proved in full."
  },
  {
   "property": "C69",
   "status": "proved",
   "theorems": [
    "C69_unit",
    "C69_raw",
    "C69_refused",
    "C69_any",
    "C69_transcribed"
   ],
   "note": "Proved in full."
  },
  {
   "property": "C70",
   "status": "proved",
   "theorems": [
    "C70_map",
    "C70_map_eq",
    "C70_sound",
    "C70_map_any",
    "C70_map_default",
    "C70_map_from_iter",
    "C70_map_order",
    "C70_set",
    "C70_set_eq",
    "C70_set_any",
    "C70_set_default",
    "C70_set_from_iter",
    "C70_set_from_array",
    "C70_set_order",
    "C70_set_raw",
    "C70_intersection",
    "C70_intersection_elements"
   ],
   "note": "Proved in full."
  },
  {
   "property": "C71",
   "status": "proved",
   "theorems": [
    "C71_map_serialize",
    "C71_set_serialize",
    "C71_map_deserialize",
    "C71_set_deserialize",
    "C71_map_debug",
    "C71_set_debug",
    "C71_intersection_debug",
    "C71_map_writes",
    "C71_set_writes",
    "C71_map_round_trip",
    "C71_set_round_trip",
    "C71_map_error",
    "C71_set_error",
    "C71_map_prints",
    "C71_set_prints"
   ],
   "note": "Proved in full."
  },
  {
   "property": "C72",
   "status": "proved",
   "theorems": [
    "C72_partial_cmp",
    "C72_cmp",
    "C72_partial_cmp_bool",
    "C72_cmp_bool",
    "C72_order",
    "C72_order_one",
    "C72_set_order",
    "C72_maps",
    "C72_sets"
   ],
   "note": "Proved in full."
  },
  {
   "property": "C73",
   "status": "proved",
   "theorems": [
    "C73_traits",
    "C73_unit_kinds",
    "C73_any_kinds",
    "C73_clone",
    "C73_eq",
    "C73_hash",
    "C73_partial_cmp",
    "C73_cmp",
    "C73_sets",
    "C73_bitsets",
    "C73_equal",
    "C73_order",
    "C73_set_order"
   ],
   "note": "Proved in full."
  },
  {
   "property": "C74",
   "status": "proved",
   "theorems": [
    "C74_storages",
    "C74_without_hashbrown",
    "C74_types",
    "C74_once"
   ],
   "note": "Proved in full."
  },
  {
   "property": "C75",
   "status": "proved",
   "theorems": [
    "C75_derive",
    "C75_bitset",
    "C75_no_errors",
    "C75_errors",
    "C75_not_enum",
    "C75_unit"
   ],
   "note": "Proved in full."
  }
 ]
}