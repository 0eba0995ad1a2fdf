{
 "claims": [
  {
   "property": "C01",
   "status": "proved",
   "theorems": [
    "C01_one_message"
   ],
   "note": ""
  },
  {
   "property": "C02",
   "status": "proved",
   "theorems": [
    "C02_every_message_has_proof"
   ],
   "note": ""
  },
  {
   "property": "C03",
   "status": "proved",
   "theorems": [
    "C03_convolve_total",
    "C03_convolve_total_refuted"
   ],
   "note": "Total for paths of at most 31 hashes; the type allows 32, for which convolve panics (C03_convolve_total_refuted)."
  },
  {
   "property": "C04",
   "status": "proved",
   "theorems": [
    "C04_placement"
   ],
   "note": ""
  },
  {
   "property": "C05",
   "status": "proved",
   "theorems": [
    "C05_first_fit"
   ],
   "note": ""
  },
  {
   "property": "C06",
   "status": "proved",
   "theorems": [
    "C06_verify_static",
    "C06_verify_rng"
   ],
   "note": "The unconditional claim fails without static entropy: C06_verify_rng gives the exact condition."
  },
  {
   "property": "C07",
   "status": "proved",
   "theorems": [
    "C07_one_commitment"
   ],
   "note": ""
  },
  {
   "property": "C08",
   "status": "proved",
   "theorems": [
    "C08_conceal",
    "C08_conceal_other"
   ],
   "note": ""
  },
  {
   "property": "C09",
   "status": "proved",
   "theorems": [
    "C09_maximal",
    "C09_any_order",
    "C09_two_steps",
    "C09_canonical"
   ],
   "note": ""
  },
  {
   "property": "C10",
   "status": "proved",
   "theorems": [
    "C10_unknown",
    "C10_exactly",
    "C10_proof_unknown",
    "C10_atomic_refuted"
   ],
   "note": "Atomicity of the failing call is refuted (C10_atomic_refuted)."
  },
  {
   "property": "C11",
   "status": "proved",
   "theorems": [
    "C11_count"
   ],
   "note": ""
  },
  {
   "property": "C12",
   "status": "proved",
   "theorems": [
    "C12_proof_block"
   ],
   "note": ""
  },
  {
   "property": "C13",
   "status": "proved",
   "theorems": [
    "C13_merge"
   ],
   "note": ""
  },
  {
   "property": "C14",
   "status": "proved",
   "theorems": [
    "C14_unrelated",
    "C14_commits",
    "C14_bad_path",
    "C14_good_path"
   ],
   "note": ""
  },
  {
   "property": "C15",
   "status": "proved",
   "theorems": [
    "C15_semilattice",
    "C15_collect"
   ],
   "note": ""
  },
  {
   "property": "C16",
   "status": "proved",
   "theorems": [
    "C16_merge_any",
    "C16_heights_debug",
    "C16_representable",
    "C16_heights_release",
    "C16_heights_release_refuted"
   ],
   "note": "Exact height sum in Debug; only modulo 2^32 in Release (C16_heights_release_refuted)."
  },
  {
   "property": "C17",
   "status": "proved",
   "theorems": [
    "C17_debug_domain",
    "C17_value",
    "C17_total_refuted",
    "C17_total_release_refuted"
   ],
   "note": "Exact domain for builds with debug assertions; totality refuted for both profiles."
  },
  {
   "property": "C18",
   "status": "proved",
   "theorems": [
    "C18_vouches",
    "C18_release_refuted"
   ],
   "note": "Proved for builds with debug assertions; for release builds the claim is refuted for every well-formed block (C18_release_refuted)."
  },
  {
   "property": "C19",
   "status": "proved",
   "theorems": [
    "C19_one_message",
    "C19_unplaced_refuted"
   ],
   "note": "Needs positions to be checked by the caller; C19_unplaced_refuted shows why."
  },
  {
   "property": "C20",
   "status": "proved",
   "theorems": [
    "C20_matches",
    "C20_equivalence",
    "C20_operations",
    "C20_trees"
   ],
   "note": ""
  },
  {
   "property": "C21",
   "status": "proved",
   "theorems": [
    "C21_decides",
    "C21_same_tree_refuted",
    "C21_same_commitment_refuted"
   ],
   "note": "The documented claim is refuted in both directions; what is decided is proved (C21_decides)."
  },
  {
   "property": "C22",
   "status": "proved",
   "theorems": [
    "C22_total",
    "C22_limit"
   ],
   "note": ""
  },
  {
   "property": "C23",
   "status": "proved",
   "theorems": [
    "C23_balanced",
    "C23_perfect"
   ],
   "note": ""
  },
  {
   "property": "C24",
   "status": "proved",
   "theorems": [
    "C24_binding",
    "C24_mpc_leaves"
   ],
   "note": ""
  },
  {
   "property": "C25",
   "status": "proved",
   "theorems": [
    "C25_strings",
    "C25_leaf_not_node",
    "C25_leaf_kinds",
    "C25_injective",
    "C25_tags",
    "C25_commitment_not_node"
   ],
   "note": ""
  },
  {
   "property": "C26",
   "status": "proved",
   "theorems": [
    "C26_one_leaf_refuted"
   ],
   "note": "A refutation, for every hash function and all leaf hashes."
  },
  {
   "property": "C27",
   "status": "proved",
   "theorems": [
    "C27_tree_binding"
   ],
   "note": ""
  },
  {
   "property": "C28",
   "status": "proved",
   "theorems": [
    "C28_subtree",
    "C28_level",
    "C28_surfaced"
   ],
   "note": ""
  },
  {
   "property": "C29",
   "status": "proved",
   "theorems": [
    "C29_positions",
    "C29_methods"
   ],
   "note": ""
  },
  {
   "property": "C30",
   "status": "proved",
   "theorems": [
    "C30_widths",
    "C30_decoded_refuted"
   ],
   "note": "Proved for constructed values; refuted for decoded ones."
  },
  {
   "property": "C31",
   "status": "proved",
   "theorems": [
    "C31_known_proofs",
    "C31_tree_proofs"
   ],
   "note": ""
  },
  {
   "property": "C32",
   "status": "proved",
   "theorems": [
    "C32_known_map"
   ],
   "note": ""
  },
  {
   "property": "C33",
   "status": "proved",
   "theorems": [
    "C33_roundtrip",
    "C33_layout",
    "C33_equality"
   ],
   "note": ""
  },
  {
   "property": "C34",
   "status": "proved",
   "theorems": [
    "C34_digest",
    "C34_layout",
    "C34_split_independent",
    "C34_commit_id",
    "C34_finish_layout"
   ],
   "note": ""
  },
  {
   "property": "C35",
   "status": "proved",
   "theorems": [
    "C35_binding"
   ],
   "note": ""
  },
  {
   "property": "C36",
   "status": "proved",
   "theorems": [
    "C36_defined",
    "C36_effect",
    "C36_finished",
    "C36_limit",
    "C36_sequence",
    "C36_failure"
   ],
   "note": ""
  },
  {
   "property": "C37",
   "status": "proved",
   "theorems": [
    "C37_strict",
    "C37_transparent",
    "C37_conceal",
    "C37_merklize",
    "C37_idempotent",
    "C37_crate_types"
   ],
   "note": ""
  },
  {
   "property": "C38",
   "status": "proved",
   "theorems": [
    "C38_stream",
    "C38_unambiguous",
    "C38_max_limit",
    "C38_too_long_24",
    "C38_too_long_refuted",
    "C38_every",
    "C38_too_long_24_refuted"
   ],
   "note": "Data longer than MAX: refuted for 8, 16 and 32 bit prefixes, panics for the 24 bit one."
  },
  {
   "property": "C39",
   "status": "proved",
   "theorems": [
    "C39_decode",
    "C39_from_array",
    "C39_one_commitment",
    "C39_serde"
   ],
   "note": ""
  },
  {
   "property": "C40",
   "status": "proved",
   "theorems": [
    "C40_commit_verify",
    "C40_try_commit_verify"
   ],
   "note": ""
  },
  {
   "property": "C41",
   "status": "proved",
   "theorems": [
    "C41_verdict",
    "C41_complete",
    "C41_sound",
    "C41_never_proof_mismatch"
   ],
   "note": ""
  },
  {
   "property": "C42",
   "status": "proved",
   "theorems": [
    "C42_verdict",
    "C42_complete"
   ],
   "note": ""
  },
  {
   "property": "C43",
   "status": "proved",
   "theorems": [
    "C43_validity",
    "C43_only_worse",
    "C43_start"
   ],
   "note": ""
  },
  {
   "property": "C44",
   "status": "proved",
   "theorems": [
    "C44_monoid",
    "C44_events"
   ],
   "note": ""
  },
  {
   "property": "C45",
   "status": "proved",
   "theorems": [
    "C45_report",
    "C45_valid",
    "C45_own_seals_ignored"
   ],
   "note": ""
  },
  {
   "property": "C46",
   "status": "proved",
   "theorems": [
    "C46_order_refuted",
    "C46_order",
    "C46_numbers"
   ],
   "note": "The merged verdict is determined by the two verdicts: C44_monoid."
  },
  {
   "property": "C47",
   "status": "proved",
   "theorems": [
    "C47_verdict",
    "C47_one_seal",
    "C47_set",
    "C47_split"
   ],
   "note": ""
  },
  {
   "property": "C48",
   "status": "proved",
   "theorems": [
    "C48_one_message",
    "C48_no_witness",
    "C48_merkle_proofs",
    "C48_merged"
   ],
   "note": ""
  },
  {
   "property": "C49",
   "status": "proved",
   "theorems": [
    "C49_text",
    "C49_identifies",
    "C49_libs_refuted",
    "C49_crate_layouts"
   ],
   "note": "Library names are dropped (C49_libs_refuted)."
  },
  {
   "property": "C50",
   "status": "proved",
   "theorems": [
    "C50_length",
    "C50_length_refuted"
   ],
   "note": "Exact modulo 2^16; the plain claim is refuted with a block of 65536 nodes."
  },
  {
   "property": "C51",
   "status": "proved",
   "theorems": [
    "C51_prefix",
    "C51_vouches"
   ],
   "note": ""
  },
  {
   "property": "C52",
   "status": "proved",
   "theorems": [
    "C52_once",
    "C52_several",
    "C52_misplaced_refuted"
   ],
   "note": "Misplaced leaves: refuted (C52_misplaced_refuted)."
  },
  {
   "property": "C53",
   "status": "proved",
   "theorems": [
    "C53_commit",
    "C53_determined",
    "C53_binding",
    "C53_messages_refuted",
    "C53_block"
   ],
   "note": "Independence of the message map: C53_messages_refuted."
  },
  {
   "property": "C54",
   "status": "proved",
   "theorems": [
    "C54_defaults",
    "C54_entropy",
    "C54_shape"
   ],
   "note": ""
  },
  {
   "property": "C55",
   "status": "proved",
   "theorems": [
    "C55_few",
    "C55_single",
    "C55_min31_refuted",
    "C55_crafted_refuted"
   ],
   "note": "At most ten messages suffice; failing sources: C55_min31_refuted, C55_crafted_refuted."
  },
  {
   "property": "C56",
   "status": "proved",
   "theorems": [
    "C56_passes",
    "C56_conceal",
    "C56_sharp"
   ],
   "note": ""
  },
  {
   "property": "C57",
   "status": "proved",
   "theorems": [
    "C57_blocks",
    "C57_trees",
    "C57_converse_refuted",
    "C57_wellformed"
   ],
   "note": "Converse refuted (C57_converse_refuted)."
  },
  {
   "property": "C58",
   "status": "proved",
   "theorems": [
    "C58_absorb",
    "C58_union"
   ],
   "note": ""
  },
  {
   "property": "C59",
   "status": "proved",
   "theorems": [
    "C59_fips",
    "C59_reduction",
    "C59_one_message"
   ],
   "note": ""
  },
  {
   "property": "C60",
   "status": "proved",
   "theorems": [
    "C60_one_proof",
    "C60_vouches"
   ],
   "note": ""
  },
  {
   "property": "C61",
   "status": "proved",
   "theorems": [
    "C61_maximal",
    "C61_conceal"
   ],
   "note": ""
  },
  {
   "property": "C62",
   "status": "proved",
   "theorems": [
    "C62_full",
    "C62_blinded",
    "C62_single"
   ],
   "note": "Both sides of the condition are proved; C62_single is the unblinded one-message tree."
  },
  {
   "property": "C63",
   "status": "proved",
   "theorems": [
    "C63_complete",
    "C63_sound"
   ],
   "note": ""
  },
  {
   "property": "C64",
   "status": "proved",
   "theorems": [
    "C64_proof",
    "C64_block",
    "C64_tree",
    "C64_conceal",
    "C64_extracted"
   ],
   "note": ""
  },
  {
   "property": "C65",
   "status": "proved",
   "theorems": [
    "C65_parameters",
    "C65_capacity",
    "C65_exclusion"
   ],
   "note": ""
  },
  {
   "property": "C66",
   "status": "proved",
   "theorems": [
    "C66_poison_refuted",
    "C66_debug",
    "C66_exact"
   ],
   "note": "Proved for debug builds and for exact height sums; for release builds refuted for every well-formed block of depth at least 2."
  },
  {
   "property": "C67",
   "status": "proved",
   "theorems": [
    "C67_succeeding",
    "C67_debug",
    "C67_release",
    "C67_silent_refuted",
    "C67_calls",
    "C67_failing_calls"
   ],
   "note": "Binding is refuted for release builds (C67_silent_refuted)."
  },
  {
   "property": "C68",
   "status": "proved",
   "theorems": [
    "C68_stream",
    "C68_layout_refuted"
   ],
   "note": "That ids identify layouts is refuted."
  },
  {
   "property": "C69",
   "status": "proved",
   "theorems": [
    "C69_accepts",
    "C69_generates"
   ],
   "note": ""
  },
  {
   "property": "C70",
   "status": "proved",
   "theorems": [
    "C70_gate",
    "C70_debug_gate",
    "C70_safe",
    "C70_vouched"
   ],
   "note": ""
  },
  {
   "property": "C71",
   "status": "proved",
   "theorems": [
    "C71_hash_field",
    "C71_merkle_field"
   ],
   "note": ""
  },
  {
   "property": "C72",
   "status": "proved",
   "theorems": [
    "C72_contents",
    "C72_own",
    "C72_other"
   ],
   "note": ""
  },
  {
   "property": "C73",
   "status": "proved",
   "theorems": [
    "C73_proof_bytes",
    "C73_block_bytes",
    "C73_entropy_refuted"
   ],
   "note": "Entropy of a block is not covered by its commitment (C73_entropy_refuted)."
  },
  {
   "property": "C74",
   "status": "proved",
   "theorems": [
    "C74_even",
    "C74_unused",
    "C74_unused_slots",
    "C74_low_bytes"
   ],
   "note": ""
  },
  {
   "property": "C75",
   "status": "proved",
   "theorems": [
    "C75_frontiers",
    "C75_debug",
    "C75_refusal"
   ],
   "note": ""
  },
  {
   "property": "C76",
   "status": "proved",
   "theorems": [
    "C76_lawful",
    "C76_layout",
    "C76_one_witness",
    "C76_report"
   ],
   "note": ""
  },
  {
   "property": "C77",
   "status": "proved",
   "theorems": [
    "C77_root",
    "C77_order",
    "C77_vector",
    "C77_set",
    "C77_untagged_refuted"
   ],
   "note": "Without a tag of the elements binding is refuted (C77_untagged_refuted)."
  },
  {
   "property": "C78",
   "status": "proved",
   "theorems": [
    "C78_truth",
    "C78_operations",
    "C78_disclosure",
    "C78_honest"
   ],
   "note": "Release-mode blocks must be well-formed when received (block_tree), as C18/C66 refute the claim otherwise."
  },
  {
   "property": "C79",
   "status": "proved",
   "theorems": [
    "C79_dumb",
    "C79_default_proof",
    "C79_fields",
    "C79_derived",
    "C79_option_refuted",
    "C79_varying_refuted",
    "C79_values"
   ],
   "note": "Refuted for encoders which branch on the value (C79_varying_refuted); C79_option_refuted shows a collision of optional and plain fields."
  },
  {
   "property": "C80",
   "status": "proved",
   "theorems": [
    "C80_published",
    "C80_tagged",
    "C80_binding",
    "C80_framed",
    "C80_framed_sha"
   ],
   "note": ""
  },
  {
   "property": "C81",
   "status": "proved",
   "theorems": [
    "C81_hidden"
   ],
   "note": ""
  },
  {
   "property": "C82",
   "status": "proved",
   "theorems": [
    "C82_no_double_spend",
    "C82_honest"
   ],
   "note": ""
  },
  {
   "property": "C83",
   "status": "proved",
   "theorems": [
    "C83_types",
    "C83_reserved",
    "C83_reserved_narrow",
    "C83_vesper_leaf",
    "C83_vesper_tags",
    "C83_names"
   ],
   "note": ""
  },
  {
   "property": "C84",
   "status": "proved",
   "theorems": [
    "C84_layouts"
   ],
   "note": ""
  },
  {
   "property": "C85",
   "status": "proved",
   "theorems": [
    "C85_proof",
    "C85_block",
    "C85_tree",
    "C85_merklize",
    "C85_engine",
    "C85_count",
    "C85_needed"
   ],
   "note": ""
  },
  {
   "property": "C86",
   "status": "proved",
   "theorems": [
    "C86_all",
    "C86_exact",
    "C86_few_fail",
    "C86_depth",
    "C86_small",
    "C86_capacity"
   ],
   "note": ""
  },
  {
   "property": "C87",
   "status": "proved",
   "theorems": [
    "C87_text",
    "C87_parse",
    "C87_roundtrip",
    "C87_slice",
    "C87_errors",
    "C87_verdicts"
   ],
   "note": ""
  },
  {
   "property": "C88",
   "status": "proved",
   "theorems": [
    "C88_buoy",
    "C88_with",
    "C88_search",
    "C88_conceal",
    "C88_merge",
    "C88_panics"
   ],
   "note": ""
  },
  {
   "property": "C89",
   "status": "proved",
   "theorems": [
    "C89_linear",
    "C89_ids",
    "C89_proofs",
    "C89_sources",
    "C89_errors",
    "C89_maps",
    "C89_inserted",
    "C89_order_free",
    "C89_positions_refuted",
    "C89_encodings_refuted"
   ],
   "note": ""
  },
  {
   "property": "C90",
   "status": "proved",
   "theorems": [
    "C90_find",
    "C90_strings",
    "C90_two_messages",
    "C90_two_trees",
    "C90_two_lists",
    "C90_tight"
   ],
   "note": ""
  },
  {
   "property": "C91",
   "status": "proved",
   "theorems": [
    "C91_templates",
    "C91_verdicts",
    "C91_seals",
    "C91_debug"
   ],
   "note": ""
  },
  {
   "property": "C92",
   "status": "proved",
   "theorems": [
    "C92_birthday",
    "C92_two_messages",
    "C92_forgery",
    "C92_two_trees",
    "C92_two_lists",
    "C92_meaning",
    "C92_numbers"
   ],
   "note": ""
  },
  {
   "property": "C93",
   "status": "proved",
   "theorems": [
    "C93_blind",
    "C93_hiding",
    "C93_search",
    "C93_full",
    "C93_meaning",
    "C93_numbers"
   ],
   "note": ""
  },
  {
   "property": "C94",
   "status": "proved",
   "theorems": [
    "C94_hidden",
    "C94_seen",
    "C94_meaning",
    "C94_numbers"
   ],
   "note": ""
  },
  {
   "property": "C95",
   "status": "proved",
   "theorems": [
    "C95_hidden",
    "C95_meaning",
    "C95_numbers",
    "C95_seen"
   ],
   "note": ""
  },
  {
   "property": "C96",
   "status": "proved",
   "theorems": [
    "C96_commit",
    "C96_embed",
    "C96_convolve",
    "C96_dummy_embed",
    "C96_embed_refuted",
    "C96_order_refuted",
    "C96_dummy_convolve",
    "C96_own"
   ],
   "note": ""
  },
  {
   "property": "C97",
   "status": "proved",
   "theorems": [
    "C97_extension",
    "C97_mpc",
    "C97_listed",
    "C97_values",
    "C97_framed_refuted",
    "C97_mpc_sha",
    "C97_tags"
   ],
   "note": ""
  },
  {
   "property": "C98",
   "status": "proved",
   "theorems": [
    "C98_sha256",
    "C98_ripemd160",
    "C98_sha_step",
    "C98_rmd_step"
   ],
   "note": ""
  },
  {
   "property": "C99",
   "status": "proved",
   "theorems": [
    "C99_always",
    "C99_det",
    "C99_id",
    "C99_id_entropy",
    "C99_id_entropy_refuted",
    "C99_structure",
    "C99_structure_refuted",
    "C99_sizing",
    "C99_scalability",
    "C99_sizing_refuted",
    "C99_scalability_refuted",
    "C99_huge"
   ],
   "note": ""
  },
  {
   "property": "C100",
   "status": "proved",
   "theorems": [
    "C100_small",
    "C100_node",
    "C100_concealed",
    "C100_block",
    "C100_proof",
    "C100_status",
    "C100_witness",
    "C100_written",
    "C100_back",
    "C100_back_report",
    "C100_valid",
    "C100_unchecked_refuted",
    "C100_order",
    "C100_unknown",
    "C100_refused",
    "C100_canonical_refuted",
    "C100_strict"
   ],
   "note": ""
  },
  {
   "property": "C101",
   "status": "proved",
   "theorems": [
    "C101_hidden",
    "C101_meaning",
    "C101_numbers",
    "C101_contains",
    "C101_seen"
   ],
   "note": ""
  },
  {
   "property": "C102",
   "status": "proved",
   "theorems": [
    "C102_hidden",
    "C102_meaning",
    "C102_numbers",
    "C102_contains"
   ],
   "note": ""
  },
  {
   "property": "C103",
   "status": "proved",
   "theorems": [
    "C103_criterion",
    "C103_depth",
    "C103_two",
    "C103_reached",
    "C103_blocked",
    "C103_attempts"
   ],
   "note": ""
  },
  {
   "property": "C104",
   "status": "proved",
   "theorems": [
    "C104_same",
    "C104_hashed",
    "C104_any",
    "C104_formed",
    "C104_tree",
    "C104_proof",
    "C104_leftmost",
    "C104_moves"
   ],
   "note": ""
  },
  {
   "property": "C105",
   "status": "proved",
   "theorems": [
    "C105_extract",
    "C105_second",
    "C105_proof",
    "C105_block",
    "C105_tree",
    "C105_value",
    "C105_numbers"
   ],
   "note": ""
  },
  {
   "property": "C106",
   "status": "proved",
   "theorems": [
    "C106_collide",
    "C106_second",
    "C106_numbers"
   ],
   "note": ""
  },
  {
   "property": "C107",
   "status": "proved",
   "theorems": [
    "C107_ids",
    "C107_double_spend",
    "C107_vectors",
    "C107_sets",
    "C107_numbers"
   ],
   "note": ""
  },
  {
   "property": "C108",
   "status": "proved",
   "theorems": [
    "C108_extract",
    "C108_ids",
    "C108_lists",
    "C108_replaced",
    "C108_numbers"
   ],
   "note": ""
  },
  {
   "property": "C109",
   "status": "proved",
   "theorems": [
    "C109_delivered",
    "C109_exact",
    "C109_same",
    "C109_channel",
    "C109_numbers"
   ],
   "note": ""
  },
  {
   "property": "C110",
   "status": "proved",
   "theorems": [
    "C110_strings",
    "C110_extract",
    "C110_forged",
    "C110_replaced",
    "C110_model",
    "C110_defined",
    "C110_wrapped",
    "C110_node_tag",
    "C110_numbers"
   ],
   "note": ""
  },
  {
   "property": "C111",
   "status": "proved",
   "theorems": [
    "C111_same",
    "C111_merge_any",
    "C111_merge",
    "C111_rounds",
    "C111_proof",
    "C111_proofs",
    "C111_tree",
    "C111_merklize",
    "C111_linear",
    "C111_sum",
    "C111_refused"
   ],
   "note": ""
  },
  {
   "property": "C112",
   "status": "proved",
   "theorems": [
    "C112_extract",
    "C112_script",
    "C112_chosen",
    "C112_two",
    "C112_numbers",
    "C112_extraction_refuted"
   ],
   "note": ""
  },
  {
   "property": "C113",
   "status": "proved",
   "theorems": [
    "C113_blind",
    "C113_hiding",
    "C113_numbers",
    "C113_meaning",
    "C113_search",
    "C113_salt"
   ],
   "note": ""
  },
  {
   "property": "C114",
   "status": "proved",
   "theorems": [
    "C114_hiding",
    "C114_meaning",
    "C114_numbers"
   ],
   "note": ""
  },
  {
   "property": "C115",
   "status": "proved",
   "theorems": [
    "C115_choice",
    "C115_meaning",
    "C115_numbers"
   ],
   "note": ""
  },
  {
   "property": "C116",
   "status": "proved",
   "theorems": [
    "C116_choice",
    "C116_meaning",
    "C116_numbers"
   ],
   "note": ""
  },
  {
   "property": "C117",
   "status": "proved",
   "theorems": [
    "C117_choice",
    "C117_meaning",
    "C117_numbers"
   ],
   "note": ""
  },
  {
   "property": "C118",
   "status": "proved",
   "theorems": [
    "C118_choice",
    "C118_meaning",
    "C118_numbers",
    "C118_together"
   ],
   "note": ""
  },
  {
   "property": "C119",
   "status": "proved",
   "theorems": [
    "C119_hidden",
    "C119_found",
    "C119_property",
    "C119_meaning",
    "C119_numbers",
    "C119_sharp"
   ],
   "note": ""
  },
  {
   "property": "C120",
   "status": "proved",
   "theorems": [
    "C120_shared",
    "C120_neighbour",
    "C120_unlinked",
    "C120_within"
   ],
   "note": ""
  },
  {
   "property": "C121",
   "status": "proved",
   "theorems": [
    "C121_domain",
    "C121_value",
    "C121_unique"
   ],
   "note": ""
  },
  {
   "property": "C122",
   "status": "proved",
   "theorems": [
    "C122_release",
    "C122_debug",
    "C122_unique",
    "C122_again"
   ],
   "note": ""
  },
  {
   "property": "C123",
   "status": "proved",
   "theorems": [
    "C123_release",
    "C123_debug",
    "C123_all",
    "C123_unchecked_refuted"
   ],
   "note": "Extraction from blocks without a commitment: refuted (C123_unchecked_refuted)."
  },
  {
   "property": "C124",
   "status": "proved",
   "theorems": [
    "C124_exact",
    "C124_narrow",
    "C124_honest",
    "C124_wide_refuted",
    "C124_deep_refuted"
   ],
   "note": ""
  },
  {
   "property": "C125",
   "status": "proved",
   "theorems": [
    "C125_session",
    "C125_truth",
    "C125_deep_refuted",
    "C125_operations",
    "C125_accepts",
    "C125_misled",
    "C125_script"
   ],
   "note": ""
  }
 ]
}