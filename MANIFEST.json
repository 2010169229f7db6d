{
 "claims": [
  {
   "property": "C01",
   "status": "proved",
   "theorems": [
    "c01_text_len_exact",
    "c01_builder_text_len_exact"
   ],
   "note": ""
  },
  {
   "property": "C02",
   "status": "proved",
   "theorems": [
    "c02_checked_panics_iff",
    "c02_release_agrees",
    "c02_release_wraps"
   ],
   "note": "Both halves proved: exact panic condition in the checked profile, agreement and wrap-around witness in the wrapping profile."
  },
  {
   "property": "C03",
   "status": "proved",
   "theorems": [
    "c03_children_tile"
   ],
   "note": ""
  },
  {
   "property": "C04",
   "status": "proved",
   "theorems": [
    "c04_splice",
    "c04_insert",
    "c04_remove",
    "c04_replace"
   ],
   "note": ""
  },
  {
   "property": "C05",
   "status": "proved",
   "theorems": [
    "c05_equality_structural",
    "c05_equal_same_hash"
   ],
   "note": ""
  },
  {
   "property": "C06",
   "status": "proved",
   "theorems": [
    "c06_lossless"
   ],
   "note": ""
  },
  {
   "property": "C07",
   "status": "proved",
   "theorems": [
    "c07_replay"
   ],
   "note": ""
  },
  {
   "property": "C08",
   "status": "proved",
   "theorems": [
    "c08_checkpoint"
   ],
   "note": "For every balanced sequence of calls between checkpoint and start_node_at."
  },
  {
   "property": "C09",
   "status": "proved",
   "theorems": [
    "c09_runs_ordered",
    "c09_refines_spec",
    "c09_finish_node_panics",
    "c09_start_node_at_panics",
    "c09_finish_panics"
   ],
   "note": ""
  },
  {
   "property": "C10",
   "status": "partial",
   "theorems": [
    "c10_finish_unclosed_refuted"
   ],
   "note": "The property is false of the code: finish() only looks at the pending children, so an unclosed node around a single finished node is dropped silently. c09_finish_panics and c09_refines_spec give the exact behaviour."
  },
  {
   "property": "C11",
   "status": "proved",
   "theorems": [
    "c11_cache_transparent",
    "c11_cache_eq"
   ],
   "note": ""
  },
  {
   "property": "C12",
   "status": "proved",
   "theorems": [
    "c12_token_dedup",
    "c12_node_dedup"
   ],
   "note": ""
  },
  {
   "property": "C13",
   "status": "proved",
   "theorems": [
    "c13_reachable_iff_position",
    "c13_exact",
    "c13_positions_distinct",
    "c13_navigation_total"
   ],
   "note": ""
  },
  {
   "property": "C14",
   "status": "proved",
   "theorems": [
    "c14_child_parent_index",
    "c14_root_has_no_parent",
    "c14_child_accessors"
   ],
   "note": ""
  },
  {
   "property": "C15",
   "status": "proved",
   "theorems": [
    "c15_siblings_exact",
    "c15_root_has_no_siblings",
    "c15_next_prev_inverse"
   ],
   "note": ""
  },
  {
   "property": "C16",
   "status": "partial",
   "theorems": [
    "c16_children",
    "c16_siblings",
    "c16_ancestors",
    "c16_by_kind_midway_partial",
    "c16_by_kind_midway_refuted"
   ],
   "note": "Exact contents and order of all four child iterators and their by_kind variants are proved. by_kind called on an iterator that has already yielded restarts at the element last yielded; the exact behaviour and a witness are given."
  },
  {
   "property": "C17",
   "status": "proved",
   "theorems": [
    "c17_preorder",
    "c17_preorder_with_tokens",
    "c17_descendants"
   ],
   "note": ""
  },
  {
   "property": "C18",
   "status": "proved",
   "theorems": [
    "c18_skip_subtree",
    "c18_misuse_unsafe"
   ],
   "note": "The exact effect of skip_subtree after an Enter event is proved. Calling it before the first next() or after a Leave event misbehaves; witnesses are given."
  },
  {
   "property": "C19",
   "status": "partial",
   "theorems": [
    "c19_first_last_token_partial",
    "c19_first_last_token_exact",
    "c19_first_token_refuted"
   ],
   "note": "The property is false of the code when an empty node is met first; the exact result (leftmost / rightmost descent) is proved for all trees, and the property for trees without empty nodes."
  },
  {
   "property": "C20",
   "status": "partial",
   "theorems": [
    "c20_next_prev_token_partial",
    "c20_next_prev_token_exact",
    "c20_next_token_refuted"
   ],
   "note": "The property is false of the code when the neighbouring subtree is headed by an empty node; exact result for all trees, and the property for trees without empty nodes."
  },
  {
   "property": "C21",
   "status": "proved",
   "theorems": [
    "c21_token_at_offset",
    "c21_count"
   ],
   "note": ""
  },
  {
   "property": "C22",
   "status": "proved",
   "theorems": [
    "c22_covering_element"
   ],
   "note": ""
  },
  {
   "property": "C23",
   "status": "proved",
   "theorems": [
    "c23_exact",
    "c23_child_or_token_at_range"
   ],
   "note": ""
  },
  {
   "property": "C24",
   "status": "proved",
   "theorems": [
    "c24_agree"
   ],
   "note": ""
  },
  {
   "property": "C25",
   "status": "proved",
   "theorems": [
    "c25_replace_with",
    "c25_token_replace_with"
   ],
   "note": ""
  },
  {
   "property": "C26",
   "status": "partial",
   "theorems": [
    "c26_equality_partial",
    "c26_equality_refuted"
   ],
   "note": "Equality is by green address and offset, so adjacent shared empty siblings compare equal; exactness proved for non-empty elements."
  },
  {
   "property": "C27",
   "status": "partial",
   "theorems": [
    "c27_roundtrip_exact",
    "c27_roundtrip_partial",
    "c27_roundtrip_refuted"
   ],
   "note": "The round trip is false for empty nodes (the range search may take a neighbour) and for same-kind chains covering one range (the outermost is found). The exact result of resolving a pointer is proved for all trees, and the round trip for non-empty nodes that no ancestor of the same kind and range encloses."
  },
  {
   "property": "C28",
   "status": "proved",
   "theorems": [
    "c28_sound_total",
    "c28_not_a_root",
    "c28_ast_ptr"
   ],
   "note": ""
  },
  {
   "property": "C29",
   "status": "proved",
   "theorems": [
    "c29_children",
    "c29_token"
   ],
   "note": ""
  },
  {
   "property": "C30",
   "status": "proved",
   "theorems": [
    "c30_node_text",
    "c30_to_string",
    "c30_slice"
   ],
   "note": ""
  },
  {
   "property": "C31",
   "status": "proved",
   "theorems": [
    "c31_eq_text",
    "c31_eq_str"
   ],
   "note": ""
  },
  {
   "property": "C32",
   "status": "proved",
   "theorems": [
    "c32_find_char",
    "c32_contains_char",
    "c32_char_at"
   ],
   "note": ""
  },
  {
   "property": "C33",
   "status": "proved",
   "theorems": [
    "c33_clone_for_update",
    "c33_clone_for_update_panics",
    "c33_clone_subtree",
    "c33_shares_green",
    "c33_original"
   ],
   "note": ""
  },
  {
   "property": "C34",
   "status": "proved",
   "theorems": [
    "c34_detach",
    "c34_text",
    "c34_root"
   ],
   "note": ""
  },
  {
   "property": "C35",
   "status": "proved",
   "theorems": [
    "c35_insert",
    "c35_text",
    "c35_detaches",
    "c35_panics"
   ],
   "note": ""
  },
  {
   "property": "C36",
   "status": "partial",
   "theorems": [
    "c36_splice_exact",
    "c36_splice_partial",
    "c36_refuted",
    "c36_sequence"
   ],
   "note": "False of the code for ranges with two or more children (only the first is removed). Proved for ranges of at most one child; c36_splice_exact gives the result for every range and c36_sequence what becomes of all handles."
  },
  {
   "property": "C37",
   "status": "partial",
   "theorems": [
    "c37_children_exact",
    "c37_refuted",
    "c37_by_kind"
   ],
   "note": "False of the code: the loop over children() stops after the first detach (c37_children_exact, c37_refuted). The loop over by_kind detaches all of them (c37_by_kind)."
  },
  {
   "property": "C38",
   "status": "proved",
   "theorems": [
    "c38_other_trees",
    "c38_immutable",
    "c38_greens"
   ],
   "note": ""
  },
  {
   "property": "C39",
   "status": "proved",
   "theorems": [
    "c39_detach",
    "c39_splice",
    "c39_constant",
    "c39_uniform"
   ],
   "note": ""
  },
  {
   "property": "C40",
   "status": "partial",
   "theorems": [
    "c40_catching_refuted",
    "c40_refines",
    "c40_no_undefined_behaviour",
    "c40_typed_step",
    "c40_allocated",
    "c40_after_panic_refuted"
   ],
   "note": "Proved for every program that type checks (c40_refines, c40_no_undefined_behaviour, c40_allocated). False after a panic in splice_children has been caught: c40_after_panic_refuted."
  },
  {
   "property": "C41",
   "status": "partial",
   "theorems": [
    "c41_no_leak",
    "c41_exact",
    "c41_refuted"
   ],
   "note": "Proved for programs that do not call to_next_sibling on an immutable root; with such calls the root object leaks (c41_refuted, exact count in c41_exact)."
  },
  {
   "property": "C42",
   "status": "proved",
   "theorems": [
    "c42_unique",
    "c42_distinct",
    "c42_sorted"
   ],
   "note": ""
  },
  {
   "property": "C43",
   "status": "proved",
   "theorems": [
    "c43_to_next"
   ],
   "note": ""
  },
  {
   "property": "C44",
   "status": "partial",
   "theorems": [
    "c44_terminates",
    "c44_never_returns",
    "c44_loops",
    "c44_refuted"
   ],
   "note": "Every call terminates except the insertion of a node below itself, which never returns (c44_never_returns, c44_loops, c44_refuted)."
  },
  {
   "property": "C45",
   "status": "proved",
   "theorems": [
    "c45_dump",
    "c45_every_element_once",
    "c45_too_deep",
    "c45_line",
    "c45_shorten",
    "c45_decimal"
   ],
   "note": ""
  },
  {
   "property": "C46",
   "status": "proved",
   "theorems": [
    "c46_green_display",
    "c46_syntax_display"
   ],
   "note": ""
  },
  {
   "property": "C47",
   "status": "proved",
   "theorems": [
    "c47_faithful",
    "c47_injective"
   ],
   "note": ""
  },
  {
   "property": "C48",
   "status": "proved",
   "theorems": [
    "c48_no_race",
    "c48_freed_once",
    "c48_freed_in_the_end",
    "c48_freeing_finishes",
    "c48_last_drop",
    "c48_unique",
    "c48_fresh_unique",
    "c48_count",
    "c48_alive"
   ],
   "note": "For any number of threads below 2^63, with release/acquire views and stale loads; forgotten handles and the abort on overflow are included."
  },
  {
   "property": "C49",
   "status": "proved",
   "theorems": [
    "c49_no_ub",
    "c49_overflow_panics",
    "c49_enough_space",
    "c49_fields",
    "c49_read_back",
    "c49_set_header",
    "c49_dealloc",
    "c49_iterator",
    "c49_raw"
   ],
   "note": ""
  },
  {
   "property": "C50",
   "status": "proved",
   "theorems": [
    "c50_children_deque",
    "c50_children_fold"
   ],
   "note": ""
  },
  {
   "property": "C51",
   "status": "proved",
   "theorems": [
    "c51_parse",
    "c51_lossless",
    "c51_errors",
    "c51_text",
    "c51_lex"
   ],
   "note": "c51_parse: exact result for all token sequences; the lexer crate is a parameter (c51_lex, c51_text). The native stack is not modelled."
  },
  {
   "property": "C52",
   "status": "proved",
   "theorems": [
    "c52_parse",
    "c52_unambiguous",
    "c52_lossless",
    "c52_rest",
    "c52_all_tokens_refuted"
   ],
   "note": "The property as stated is proved. c52_all_tokens_refuted records that tokens after a complete expression are dropped from the tree."
  },
  {
   "property": "C53",
   "status": "partial",
   "theorems": [
    "c53_text_display_partial",
    "c53_text_display_refuted",
    "c53_display_options_partial",
    "c53_display_options_refuted"
   ],
   "note": "The property is false of the code: width and precision are applied to each token separately. Exact behaviour proved for all trees and options, with a witness."
  },
  {
   "property": "C54",
   "status": "proved",
   "theorems": [
    "c54_eval",
    "c54_total"
   ],
   "note": "str::parse::<i64> is a function parameter; both overflow profiles."
  },
  {
   "property": "C55",
   "status": "proved",
   "theorems": [
    "c55_children",
    "c55_children_by_kind",
    "c55_siblings",
    "c55_ancestors",
    "c55_descendants",
    "c55_preorder",
    "c55_shown"
   ],
   "note": "Methods are programs of single calls (Compound.v), each call with its Rust handles; the simulation theorem carries the results of layer 4 to the heap."
  },
  {
   "property": "C56",
   "status": "proved",
   "theorems": [
    "c56_first_last_token",
    "c56_next_prev_token",
    "c56_token_at_offset",
    "c56_covering_element"
   ],
   "note": "next_token/prev_token: the exact behaviour of C20."
  },
  {
   "property": "C57",
   "status": "proved",
   "theorems": [
    "c57_adaptive"
   ],
   "note": "A panic ends the program, as in C40."
  },
  {
   "property": "C58",
   "status": "proved",
   "theorems": [
    "c58_detach_children",
    "c58_collect_detach"
   ],
   "note": ""
  },
  {
   "property": "C59",
   "status": "proved",
   "theorems": [
    "c59_put_back"
   ],
   "note": ""
  },
  {
   "property": "C60",
   "status": "proved",
   "theorems": [
    "c60_dump",
    "c60_too_deep",
    "c60_line",
    "c60_display"
   ],
   "note": "Same modelling of formatters as C45/C46; the walk is made of calls on the heap."
  },
  {
   "property": "C61",
   "status": "proved",
   "theorems": [
    "c61_text",
    "c61_to_string",
    "c61_fresh",
    "c61_slice",
    "c61_searches"
   ],
   "note": "The text is a handle and a range; len and is_empty read the range only."
  },
  {
   "property": "C62",
   "status": "partial",
   "theorems": [
    "c62_eq_partial",
    "c62_eq_refuted",
    "c62_symmetric_refuted"
   ],
   "note": "False: a text whose node has become shorter can equal a longer one, and == need not be symmetric (c62_eq_refuted, c62_symmetric_refuted). Proved: right when the strings are as long as the ranges, or equally long; equality implies that one is a prefix of the other."
  },
  {
   "property": "C63",
   "status": "proved",
   "theorems": [
    "c63_new",
    "c63_mutable",
    "c63_not_a_root",
    "c63_resolve",
    "c63_roundtrip"
   ],
   "note": ""
  },
  {
   "property": "C64",
   "status": "proved",
   "theorems": [
    "c64_children",
    "c64_token"
   ],
   "note": ""
  },
  {
   "property": "C65",
   "status": "proved",
   "theorems": [
    "c65_clone"
   ],
   "note": ""
  },
  {
   "property": "C66",
   "status": "proved",
   "theorems": [
    "c66_node",
    "c66_token",
    "c66_text"
   ],
   "note": ""
  },
  {
   "property": "C67",
   "status": "proved",
   "theorems": [
    "c67_immutable",
    "c67_made"
   ],
   "note": ""
  },
  {
   "property": "C68",
   "status": "proved",
   "theorems": [
    "c68_caught",
    "c68_shows",
    "c68_splice"
   ],
   "note": ""
  },
  {
   "property": "C69",
   "status": "proved",
   "theorems": [
    "c69_green_programs"
   ],
   "note": ""
  },
  {
   "property": "C70",
   "status": "proved",
   "theorems": [
    "c70_exact"
   ],
   "note": ""
  },
  {
   "property": "C71",
   "status": "partial",
   "theorems": [
    "c71_leaks",
    "c71_leak_refuted"
   ],
   "note": "False: the allocation of the node and the children already written stay behind (c71_leak_refuted: 33 allocations and no handle). Proved: exactly that stays behind, one node per panicked construction (c71_leaks)."
  },
  {
   "property": "C72",
   "status": "proved",
   "theorems": [
    "c72_depth",
    "c72_no_bound"
   ],
   "note": ""
  },
  {
   "property": "C73",
   "status": "proved",
   "theorems": [
    "c73_init",
    "c73_live",
    "c73_own",
    "c73_drop",
    "c73_build"
   ],
   "note": ""
  },
  {
   "property": "C74",
   "status": "partial",
   "theorems": [
    "c74_same",
    "c74_script",
    "c74_text",
    "c74_spec",
    "c74_refused",
    "c74_overflow",
    "c74_same_refuted"
   ],
   "note": "True of every program whose debug build does not panic (c74_same, c74_script, c74_text, c74_spec). A call that panics in a debug build panics in a release build with the same memory left, unless it has to make a text longer than u32::MAX (c74_refused). In that case a release build continues with the length modulo 2^32 (c74_overflow, c74_same_refuted); see C81."
  },
  {
   "property": "C75",
   "status": "proved",
   "theorems": [
    "c75_handles",
    "c75_accessors",
    "c75_children",
    "c75_siblings",
    "c75_root_siblings",
    "c75_tokens",
    "c75_search"
   ],
   "note": ""
  },
  {
   "property": "C76",
   "status": "proved",
   "theorems": [
    "c76_children",
    "c76_siblings",
    "c76_ancestors",
    "c76_preorder",
    "c76_descendants"
   ],
   "note": "by_kind is called on a fresh iterator; on an advanced one it behaves as C16 says."
  },
  {
   "property": "C77",
   "status": "proved",
   "theorems": [
    "c77_chunks",
    "c77_for_each",
    "c77_slice_args"
   ],
   "note": ""
  },
  {
   "property": "C78",
   "status": "proved",
   "theorems": [
    "c78_green_display",
    "c78_agrees",
    "c78_options_ignored"
   ],
   "note": ""
  },
  {
   "property": "C79",
   "status": "proved",
   "theorems": [
    "c79_builders",
    "c79_exact",
    "c79_builder_leaks"
   ],
   "note": ""
  },
  {
   "property": "C80",
   "status": "proved",
   "theorems": [
    "c80_entries",
    "c80_shared"
   ],
   "note": ""
  },
  {
   "property": "C81",
   "status": "proved",
   "theorems": [
    "c81_safe",
    "c81_safe_typed",
    "c81_right",
    "c81_hide_look",
    "c81_refused",
    "c81_edits",
    "c81_memory"
   ],
   "note": "The specification is that of the program in which each token's text has been moved into its kind (hide_op), so that lengths play no part. Not covered here: child_or_token_at_range (see C89), and the values of lengths and ranges after wrapping (see C87 and C88)."
  },
  {
   "property": "C82",
   "status": "proved",
   "theorems": [
    "c82_narrow",
    "c82_narrow_iterators",
    "c82_shown",
    "c82_wide_children",
    "c82_wide_never_ends",
    "c82_wide_replace",
    "c82_wide_exists"
   ],
   "note": "Navigation functions of immutable trees (src/cursor.rs). The mutable case, with indices adjusted in place, is modelled with unbounded indices."
  },
  {
   "property": "C83",
   "status": "proved",
   "theorems": [
    "c83_child",
    "c83_root",
    "c83_index_unique",
    "c83_fits"
   ],
   "note": "Holds between API calls (every prefix of a program is a program). The bound on the count is for programs without the leak of C41."
  },
  {
   "property": "C84",
   "status": "proved",
   "theorems": [
    "c84_schedules",
    "c84_counts",
    "c84_exclusive",
    "c84_drops_end",
    "c84_no_leak",
    "c84_alone"
   ],
   "note": "Steps are interleaved in one order (sequential consistency); C48 and C85 justify the orderings of the atomics."
  },
  {
   "property": "C85",
   "status": "proved",
   "theorems": [
    "c85_race_free",
    "c85_no_borrow",
    "c85_order",
    "c85_stable"
   ],
   "note": "The happens-before monitor of Races.v is part of the statement: it stops with an error at the first race."
  },
  {
   "property": "C86",
   "status": "proved",
   "theorems": [
    "c86_faithful",
    "c86_injective"
   ],
   "note": "The serializer is a function from the calls made so far to success or failure; it does not edit the tree."
  },
  {
   "property": "C87",
   "status": "proved",
   "theorems": [
    "c87_lengths",
    "c87_offsets",
    "c87_new",
    "c87_equality",
    "c87_builder",
    "c87_ranges",
    "c87_below",
    "c87_beyond"
   ],
   "note": "Offsets are those of cursor.rs on positions of a tree; the node heap itself is covered by C81 up to the values of ranges."
  },
  {
   "property": "C88",
   "status": "proved",
   "theorems": [
    "c88_trees",
    "c88_look",
    "c88_below",
    "c88_greens"
   ],
   "note": "Handles on mutable trees; the offsets stored in immutable node objects are covered by C87 as values, not as steps of the node heap."
  },
  {
   "property": "C89",
   "status": "proved",
   "theorems": [
    "c89_run",
    "c89_safe",
    "c89_right",
    "c89_same",
    "c89_elsewhere"
   ],
   "note": "c89_run holds of every program; c89_safe and c89_right are for programs that stay well typed whatever the searches answer. c89_elsewhere: the answer may be a child that does not contain the range."
  },
  {
   "property": "C90",
   "status": "proved",
   "theorems": [
    "c90_exact"
   ],
   "note": "Handles on mutable trees, as in C88; nodes of more than u32::MAX bytes are in C89 only."
  },
  {
   "property": "C91",
   "status": "proved",
   "theorems": [
    "c91_shows",
    "c91_wrapped",
    "c91_tells_nodes",
    "c91_tells_tokens"
   ],
   "note": "std's debug_struct, debug_tuple and PadAdapter are modelled after their source; no format options but # are given (no width, no hexadecimal); Debug of str is a parameter."
  },
  {
   "property": "C92",
   "status": "proved",
   "theorems": [
    "c92_shows",
    "c92_wrapped",
    "c92_tells",
    "c92_edited"
   ],
   "note": "c92_edited: handles on any tree after any program, in builds where no length wraps; c92_wrapped: immutable trees. Format options other than # are not modelled. The derived Debug of cursor::SyntaxToken and of the iterators, which shows addresses, is not modelled."
  }
 ]
}