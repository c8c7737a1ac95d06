{
 "claims": [
  {
   "property": "C01",
   "status": "proved",
   "theorems": [
    "C01_elastic_momentum"
   ],
   "note": ""
  },
  {
   "property": "C02",
   "status": "proved",
   "theorems": [
    "C02_elastic_energy"
   ],
   "note": ""
  },
  {
   "property": "C03",
   "status": "proved",
   "theorems": [
    "C03_elastic_out_in",
    "C03_vss_out_in"
   ],
   "note": ""
  },
  {
   "property": "C04",
   "status": "proved",
   "theorems": [
    "C04_isotropic_reach"
   ],
   "note": ""
  },
  {
   "property": "C05",
   "status": "proved",
   "theorems": [
    "C05_C06_vss",
    "C05_cone_energy_refuted"
   ],
   "note": ""
  },
  {
   "property": "C06",
   "status": "proved",
   "theorems": [
    "C05_C06_vss",
    "C06_isotropic"
   ],
   "note": ""
  },
  {
   "property": "C07",
   "status": "proved",
   "theorems": [
    "C07_C08_two_products",
    "C07_C76_shares"
   ],
   "note": ""
  },
  {
   "property": "C08",
   "status": "proved",
   "theorems": [
    "C07_C08_two_products"
   ],
   "note": ""
  },
  {
   "property": "C09",
   "status": "proved",
   "theorems": [
    "C09_C10_three_products"
   ],
   "note": ""
  },
  {
   "property": "C10",
   "status": "proved",
   "theorems": [
    "C09_C10_three_products"
   ],
   "note": ""
  },
  {
   "property": "C11",
   "status": "proved",
   "theorems": [
    "C11_nan_two",
    "C11_nan_three"
   ],
   "note": ""
  },
  {
   "property": "C12",
   "status": "proved",
   "theorems": [
    "C12_selected_two",
    "C12_selected_three",
    "C12_binary64_refuted"
   ],
   "note": ""
  },
  {
   "property": "C13",
   "status": "proved",
   "theorems": [
    "C13_dispatch"
   ],
   "note": ""
  },
  {
   "property": "C14",
   "status": "proved",
   "theorems": [
    "C14_products"
   ],
   "note": ""
  },
  {
   "property": "C15",
   "status": "proved",
   "theorems": [
    "C15_minimal_score"
   ],
   "note": ""
  },
  {
   "property": "C16",
   "status": "proved",
   "theorems": [
    "C16_out_of_bounds",
    "C16_rejected"
   ],
   "note": ""
  },
  {
   "property": "C17",
   "status": "proved",
   "theorems": [
    "C17_reduced_mass"
   ],
   "note": ""
  },
  {
   "property": "C18",
   "status": "proved",
   "theorems": [
    "C18_constant"
   ],
   "note": ""
  },
  {
   "property": "C19",
   "status": "proved",
   "theorems": [
    "C19_inverse"
   ],
   "note": ""
  },
  {
   "property": "C20",
   "status": "proved",
   "theorems": [
    "C20_value",
    "C20_vhs"
   ],
   "note": ""
  },
  {
   "property": "C21",
   "status": "proved",
   "theorems": [
    "C21_log"
   ],
   "note": ""
  },
  {
   "property": "C22",
   "status": "proved",
   "theorems": [
    "C22_table"
   ],
   "note": ""
  },
  {
   "property": "C23",
   "status": "proved",
   "theorems": [
    "C23_max_nodes",
    "C23_rising",
    "C23_max_refuted"
   ],
   "note": ""
  },
  {
   "property": "C24",
   "status": "proved",
   "theorems": [
    "C24_leading_zeros"
   ],
   "note": ""
  },
  {
   "property": "C25",
   "status": "proved",
   "theorems": [
    "C25_tail",
    "C25_environment"
   ],
   "note": ""
  },
  {
   "property": "C26",
   "status": "proved",
   "theorems": [
    "C26_lotz_derivative"
   ],
   "note": ""
  },
  {
   "property": "C27",
   "status": "proved",
   "theorems": [
    "C27_lotz_nonneg",
    "C27_lotz_one_shell"
   ],
   "note": ""
  },
  {
   "property": "C28",
   "status": "proved",
   "theorems": [
    "C28_average",
    "C28_threshold"
   ],
   "note": ""
  },
  {
   "property": "C29",
   "status": "proved",
   "theorems": [
    "C29_averaged_diameters"
   ],
   "note": ""
  },
  {
   "property": "C30",
   "status": "proved",
   "theorems": [
    "C30_set_max"
   ],
   "note": ""
  },
  {
   "property": "C31",
   "status": "proved",
   "theorems": [
    "C31_C32_C33_outpath",
    "C31_binary64"
   ],
   "note": ""
  },
  {
   "property": "C32",
   "status": "proved",
   "theorems": [
    "C31_C32_C33_outpath"
   ],
   "note": ""
  },
  {
   "property": "C33",
   "status": "proved",
   "theorems": [
    "C31_C32_C33_outpath",
    "C33_intervals"
   ],
   "note": ""
  },
  {
   "property": "C34",
   "status": "proved",
   "theorems": [
    "C34_total",
    "C34_not_above_refuted",
    "C104_C34_inert"
   ],
   "note": ""
  },
  {
   "property": "C35",
   "status": "proved",
   "theorems": [
    "C35_species_order"
   ],
   "note": ""
  },
  {
   "property": "C36",
   "status": "proved",
   "theorems": [
    "C36_self",
    "C36_pairs_binary64",
    "C36_pairs_real"
   ],
   "note": ""
  },
  {
   "property": "C37",
   "status": "proved",
   "theorems": [
    "C37_single_diverges",
    "C37_disjoint_two_draws",
    "C37_every_pair",
    "C37_every_pair_real"
   ],
   "note": ""
  },
  {
   "property": "C38",
   "status": "proved",
   "theorems": [
    "C38_test_count",
    "C38_terminates",
    "C38_terminates_inplace"
   ],
   "note": ""
  },
  {
   "property": "C39",
   "status": "proved",
   "theorems": [
    "C39_loop_count",
    "C39_loop_diverges"
   ],
   "note": ""
  },
  {
   "property": "C40",
   "status": "proved",
   "theorems": [
    "C40_estimate",
    "C40_symmetric"
   ],
   "note": ""
  },
  {
   "property": "C41",
   "status": "proved",
   "theorems": [
    "C41_undefined_iff",
    "C41_positions"
   ],
   "note": ""
  },
  {
   "property": "C42",
   "status": "proved",
   "theorems": [
    "C42_out_of_place",
    "C42_in_place",
    "C42_positions"
   ],
   "note": ""
  },
  {
   "property": "C43",
   "status": "proved",
   "theorems": [
    "C43_removal",
    "C104_C43_reactions",
    "C104_C43_left"
   ],
   "note": ""
  },
  {
   "property": "C44",
   "status": "proved",
   "theorems": [
    "C44_step",
    "C44_run",
    "C44_slots"
   ],
   "note": ""
  },
  {
   "property": "C45",
   "status": "proved",
   "theorems": [
    "C45_property_order",
    "C45_real_masses",
    "C45_double_masses",
    "C45_nan_mass_refuted",
    "C45_term_order",
    "C45_eqterm_order",
    "C45_input_order",
    "C45_input_order_refuted"
   ],
   "note": ""
  },
  {
   "property": "C46",
   "status": "proved",
   "theorems": [
    "C46_load_terms",
    "C46_loaded_only_if",
    "C46_unknown_throws",
    "C46_ok_or_throw"
   ],
   "note": ""
  },
  {
   "property": "C47",
   "status": "proved",
   "theorems": [
    "C47_loaded",
    "C47_throws",
    "C47_core_iff",
    "C47_core_defined",
    "C47_zero_multiplicity_refuted"
   ],
   "note": ""
  },
  {
   "property": "C48",
   "status": "proved",
   "theorems": [
    "C48_loaded",
    "C48_default_model",
    "C48_agree_plain",
    "C48_from_refuted",
    "C48_zero_product_refuted",
    "C48_duplicate_refuted"
   ],
   "note": ""
  },
  {
   "property": "C49",
   "status": "proved",
   "theorems": [
    "C49_product_lookup"
   ],
   "note": ""
  },
  {
   "property": "C50",
   "status": "proved",
   "theorems": [
    "C50_additions",
    "C50_lookup",
    "C50_unknown",
    "C50_model"
   ],
   "note": ""
  },
  {
   "property": "C51",
   "status": "proved",
   "theorems": [
    "C51_sorted"
   ],
   "note": ""
  },
  {
   "property": "C52",
   "status": "proved",
   "theorems": [
    "C52_exact",
    "C52_total"
   ],
   "note": ""
  },
  {
   "property": "C53",
   "status": "proved",
   "theorems": [
    "C53_never_selected",
    "C53_would_load"
   ],
   "note": ""
  },
  {
   "property": "C54",
   "status": "proved",
   "theorems": [
    "C54_plain",
    "C54_colon_refuted",
    "C54_empty_refuted"
   ],
   "note": ""
  },
  {
   "property": "C55",
   "status": "proved",
   "theorems": [
    "C55_created",
    "C55_made_elastic",
    "C55_total",
    "C55_initialised"
   ],
   "note": ""
  },
  {
   "property": "C56",
   "status": "proved",
   "theorems": [
    "C56_misspelt",
    "C56_unasked_refuted"
   ],
   "note": ""
  },
  {
   "property": "C57",
   "status": "proved",
   "theorems": [
    "C57_C58_total",
    "C57_algebra",
    "C57_C60_pointwise",
    "C57_idempotent"
   ],
   "note": ""
  },
  {
   "property": "C58",
   "status": "proved",
   "theorems": [
    "C57_C58_total",
    "C58_preferred",
    "C58_required",
    "C58_empty_name"
   ],
   "note": ""
  },
  {
   "property": "C59",
   "status": "proved",
   "theorems": [
    "C59_text_unique",
    "C59_zero_refuted",
    "C59_blank_refuted"
   ],
   "note": ""
  },
  {
   "property": "C60",
   "status": "proved",
   "theorems": [
    "C57_C60_pointwise",
    "C60_first_wins",
    "C60_override_refuted",
    "C60_no_terms",
    "C60_exact_species",
    "C60_wildcard"
   ],
   "note": ""
  },
  {
   "property": "C61",
   "status": "proved",
   "theorems": [
    "C61_required",
    "C61_flat",
    "C61_print",
    "C61_load",
    "C61_middle_null_refuted"
   ],
   "note": ""
  },
  {
   "property": "C62",
   "status": "proved",
   "theorems": [
    "C62_chain"
   ],
   "note": ""
  },
  {
   "property": "C63",
   "status": "proved",
   "theorems": [
    "C63_C100_measured",
    "C63_same_species",
    "C63_two_species",
    "C63_two_species_refuted"
   ],
   "note": ""
  },
  {
   "property": "C64",
   "status": "proved",
   "theorems": [
    "C64_acceptance"
   ],
   "note": ""
  },
  {
   "property": "C65",
   "status": "proved",
   "theorems": [
    "C65_meaning",
    "C65_round_trip",
    "C65_loaded_expressible",
    "C65_unknown_tag",
    "C65_arity",
    "C65_preference_refuted"
   ],
   "note": ""
  },
  {
   "property": "C66",
   "status": "proved",
   "theorems": [
    "C66_equal_sides",
    "C66_reordered_refuted",
    "C66_glued_refuted"
   ],
   "note": ""
  },
  {
   "property": "C67",
   "status": "proved",
   "theorems": [
    "C67_by_names",
    "C67_unknown"
   ],
   "note": ""
  },
  {
   "property": "C68",
   "status": "proved",
   "theorems": [
    "C68_product_names"
   ],
   "note": ""
  },
  {
   "property": "C69",
   "status": "proved",
   "theorems": [
    "C69_distribution",
    "C69_mean",
    "C69_rms",
    "C69_deviation",
    "C69_estimate"
   ],
   "note": ""
  },
  {
   "property": "C70",
   "status": "proved",
   "theorems": [
    "C70_auto",
    "C70_off"
   ],
   "note": ""
  },
  {
   "property": "C71",
   "status": "proved",
   "theorems": [
    "C71_best_fit",
    "C71_continuous_refuted"
   ],
   "note": ""
  },
  {
   "property": "C72",
   "status": "proved",
   "theorems": [
    "C72_again",
    "C72_maximum",
    "C72_total"
   ],
   "note": ""
  },
  {
   "property": "C73",
   "status": "proved",
   "theorems": [
    "C73_equations",
    "C73_C78_species",
    "C73_C78_conserved",
    "C73_C78_momentum",
    "C73_C78_energy"
   ],
   "note": ""
  },
  {
   "property": "C74",
   "status": "proved",
   "theorems": [
    "C74_radius",
    "C74_average",
    "C74_table",
    "C74_negative"
   ],
   "note": ""
  },
  {
   "property": "C75",
   "status": "proved",
   "theorems": [
    "C75_wraps",
    "C75_all_selectable_refuted",
    "C75_multiple_diverges",
    "C75_undefined"
   ],
   "note": ""
  },
  {
   "property": "C76",
   "status": "proved",
   "theorems": [
    "C76_three_mean",
    "C76_three_energy",
    "C76_three_spread",
    "C76_three_order_refuted",
    "C76_elastic_energy",
    "C76_vss_energy",
    "C76_equal_masses",
    "C76_target_at_rest",
    "C07_C76_shares",
    "C76_elastic_mean",
    "C76_elastic_isotropic",
    "C76_vss_mean",
    "C76_reaction_mean"
   ],
   "note": ""
  },
  {
   "property": "C77",
   "status": "proved",
   "theorems": [
    "C77_reach"
   ],
   "note": ""
  },
  {
   "property": "C78",
   "status": "proved",
   "theorems": [
    "C73_C78_species",
    "C73_C78_conserved",
    "C73_C78_momentum",
    "C73_C78_energy",
    "C78_species",
    "C78_momentum",
    "C78_energy"
   ],
   "note": ""
  },
  {
   "property": "C79",
   "status": "proved",
   "theorems": [
    "C79_products"
   ],
   "note": ""
  },
  {
   "property": "C80",
   "status": "proved",
   "theorems": [
    "C80_frame",
    "C80_reads_reactants",
    "C80_setters",
    "C80_readers",
    "C80_species",
    "C80_conserve2",
    "C80_conserve3"
   ],
   "note": ""
  },
  {
   "property": "C81",
   "status": "proved",
   "theorems": [
    "C81_document",
    "C81_history",
    "C81_own_commands_refuted",
    "C81_helpers",
    "C81_helpers_refuted",
    "C81_second_database",
    "C81_shadow"
   ],
   "note": ""
  },
  {
   "property": "C82",
   "status": "proved",
   "theorems": [
    "C82_exact",
    "C82_otherwise",
    "C82_registry",
    "C82_built",
    "C82_ignored",
    "C82_energy_change",
    "C82_vss",
    "C82_particle"
   ],
   "note": ""
  },
  {
   "property": "C83",
   "status": "proved",
   "theorems": [
    "C83_same",
    "C83_documents"
   ],
   "note": ""
  },
  {
   "property": "C84",
   "status": "proved",
   "theorems": [
    "C84_negative_energy",
    "C84_massless"
   ],
   "note": ""
  },
  {
   "property": "C85",
   "status": "proved",
   "theorems": [
    "C85_balance",
    "C85_run"
   ],
   "note": ""
  },
  {
   "property": "C86",
   "status": "proved",
   "theorems": [
    "C86_energy",
    "C86_adds",
    "C86_excitation_refuted"
   ],
   "note": ""
  },
  {
   "property": "C87",
   "status": "proved",
   "theorems": [
    "C87_products"
   ],
   "note": ""
  },
  {
   "property": "C88",
   "status": "proved",
   "theorems": [
    "C88_loads",
    "C88_shipped"
   ],
   "note": ""
  },
  {
   "property": "C89",
   "status": "proved",
   "theorems": [
    "C89_models",
    "C89_saturated",
    "C89_rate"
   ],
   "note": ""
  },
  {
   "property": "C90",
   "status": "proved",
   "theorems": [
    "C90_like_rate"
   ],
   "note": ""
  },
  {
   "property": "C91",
   "status": "proved",
   "theorems": [
    "C91_tests"
   ],
   "note": ""
  },
  {
   "property": "C92",
   "status": "proved",
   "theorems": [
    "C92_elastic"
   ],
   "note": ""
  },
  {
   "property": "C93",
   "status": "proved",
   "theorems": [
    "C93_vss",
    "C93_energy"
   ],
   "note": ""
  },
  {
   "property": "C94",
   "status": "proved",
   "theorems": [
    "C94_two_products"
   ],
   "note": ""
  },
  {
   "property": "C95",
   "status": "proved",
   "theorems": [
    "C95_three_products"
   ],
   "note": ""
  },
  {
   "property": "C96",
   "status": "proved",
   "theorems": [
    "C96_gas"
   ],
   "note": ""
  },
  {
   "property": "C97",
   "status": "proved",
   "theorems": [
    "C97_cross_sections",
    "C97_set_maximum"
   ],
   "note": ""
  },
  {
   "property": "C98",
   "status": "proved",
   "theorems": [
    "C98_acceptance"
   ],
   "note": ""
  },
  {
   "property": "C99",
   "status": "proved",
   "theorems": [
    "C99_tests"
   ],
   "note": ""
  },
  {
   "property": "C100",
   "status": "proved",
   "theorems": [
    "C100_created",
    "C100_created_double",
    "C100_sorted",
    "C100_database",
    "C100_undefined",
    "C100_never",
    "C100_completed",
    "C63_C100_measured",
    "C100_C101_results",
    "C100_completes"
   ],
   "note": ""
  },
  {
   "property": "C101",
   "status": "proved",
   "theorems": [
    "C101_reported",
    "C101_totals",
    "C101_replaced",
    "C101_replaced_refuted",
    "C100_C101_results"
   ],
   "note": ""
  },
  {
   "property": "C102",
   "status": "proved",
   "theorems": [
    "C102_galilean",
    "C102_positions",
    "C102_earlier",
    "C102_galilean_double_refuted",
    "C102_measured",
    "C102_measured_refuted"
   ],
   "note": ""
  },
  {
   "property": "C103",
   "status": "proved",
   "theorems": [
    "C103_draws",
    "C103_count",
    "C103_count_mixed",
    "C103_self_unbounded"
   ],
   "note": ""
  },
  {
   "property": "C104",
   "status": "proved",
   "theorems": [
    "C104_C34_inert",
    "C104_run",
    "C104_collides",
    "C104_spread",
    "C104_C43_reactions",
    "C104_C43_left"
   ],
   "note": ""
  },
  {
   "property": "C105",
   "status": "proved",
   "theorems": [
    "C105_skipped",
    "C105_idle",
    "C105_backwards"
   ],
   "note": ""
  }
 ]
}