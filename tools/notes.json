{
"C10": [
null,
"The property is false of the code: finish() only looks at the pending children, so an unclosed node around a single finished node is dropped silently. c09_finish_panics and c09_refines_spec give the exact behaviour."
],
"C02": [
null,
"Both halves proved: exact panic condition in the checked profile, agreement and wrap-around witness in the wrapping profile."
],
"C08": [
null,
"For every balanced sequence of calls between checkpoint and start_node_at."
],
"C16": [
null,
"Exact contents and order of all four child iterators and their by_kind variants are proved. by_kind called on an iterator that has already yielded restarts at the element last yielded; the exact behaviour and a witness are given."
],
"C18": [
null,
"The exact effect of skip_subtree after an Enter event is proved. Calling it before the first next() or after a Leave event misbehaves; witnesses are given."
],
"C19": [
null,
"The property is false of the code when an empty node is met first; the exact result (leftmost / rightmost descent) is proved for all trees, and the property for trees without empty nodes."
],
"C20": [
null,
"The property is false of the code when the neighbouring subtree is headed by an empty node; exact result for all trees, and the property for trees without empty nodes."
],
"C26": [
null,
"Equality is by green address and offset, so adjacent shared empty siblings compare equal; exactness proved for non-empty elements."
],
"C27": [
null,
"The round trip is false for empty nodes (the range search may take a neighbour) and for same-kind chains covering one range (the outermost is found). The exact result of resolving a pointer is proved for all trees, and the round trip for non-empty nodes that no ancestor of the same kind and range encloses."
],
"C36": [
null,
"False of the code for ranges with two or more children (only the first is removed). Proved for ranges of at most one child; c36_splice_exact gives the result for every range and c36_sequence what becomes of all handles."
],
"C37": [
null,
"False of the code: the loop over children() stops after the first detach (c37_children_exact, c37_refuted). The loop over by_kind detaches all of them (c37_by_kind)."
],
"C40": [
null,
"Proved for every program that type checks (c40_refines, c40_no_undefined_behaviour, c40_allocated). False after a panic in splice_children has been caught: c40_after_panic_refuted."
],
"C41": [
null,
"Proved for programs that do not call to_next_sibling on an immutable root; with such calls the root object leaks (c41_refuted, exact count in c41_exact)."
],
"C44": [
null,
"Every call terminates except the insertion of a node below itself, which never returns (c44_never_returns, c44_loops, c44_refuted)."
],
"C48": [
null,
"For any number of threads below 2^63, with release/acquire views and stale loads; forgotten handles and the abort on overflow are included."
],
"C51": [
null,
"c51_parse: exact result for all token sequences; the lexer crate is a parameter (c51_lex, c51_text). The native stack is not modelled."
],
"C52": [
"proved",
"The property as stated is proved. c52_all_tokens_refuted records that tokens after a complete expression are dropped from the tree."
],
"C53": [
null,
"The property is false of the code: width and precision are applied to each token separately. Exact behaviour proved for all trees and options, with a witness."
],
"C54": [
null,
"str::parse::<i64> is a function parameter; both overflow profiles."
],
"C55": [
null,
"Methods are programs of single calls (Compound.v), each call with its Rust handles; the simulation theorem carries the results of layer 4 to the heap."
],
"C56": [
null,
"next_token/prev_token: the exact behaviour of C20."
],
"C57": [
null,
"A panic ends the program, as in C40."
],
"C60": [
null,
"Same modelling of formatters as C45/C46; the walk is made of calls on the heap."
],
"C61": [
null,
"The text is a handle and a range; len and is_empty read the range only."
],
"C62": [
null,
"False: a text whose node has become shorter can equal a longer one, and == need not be symmetric (c62_eq_refuted, c62_symmetric_refuted). Proved: right when the strings are as long as the ranges, or equally long; equality implies that one is a prefix of the other."
],
"C71": [
null,
"False: the allocation of the node and the children already written stay behind (c71_leak_refuted: 33 allocations and no handle). Proved: exactly that stays behind, one node per panicked construction (c71_leaks)."
],
"C74": [
null,
"True of every program whose debug build does not panic (c74_same, c74_script, c74_text, c74_spec). A call that panics in a debug build panics in a release build with the same memory left, unless it has to make a text longer than u32::MAX (c74_refused). In that case a release build continues with the length modulo 2^32 (c74_overflow, c74_same_refuted); see C81."
],
"C76": [
null,
"by_kind is called on a fresh iterator; on an advanced one it behaves as C16 says."
],
"C81": [
null,
"The specification is that of the program in which each token's text has been moved into its kind (hide_op), so that lengths play no part. Not covered here: child_or_token_at_range (see C89), and the values of lengths and ranges after wrapping (see C87 and C88)."
],
"C82": [
null,
"Navigation functions of immutable trees (src/cursor.rs). The mutable case, with indices adjusted in place, is modelled with unbounded indices."
],
"C83": [
null,
"Holds between API calls (every prefix of a program is a program). The bound on the count is for programs without the leak of C41."
],
"C84": [
null,
"Steps are interleaved in one order (sequential consistency); C48 and C85 justify the orderings of the atomics."
],
"C85": [
null,
"The happens-before monitor of Races.v is part of the statement: it stops with an error at the first race."
],
"C86": [
null,
"The serializer is a function from the calls made so far to success or failure; it does not edit the tree."
],
"C87": [
null,
"Offsets are those of cursor.rs on positions of a tree; the node heap itself is covered by C81 up to the values of ranges."
],
"C88": [
null,
"Handles on mutable trees; the offsets stored in immutable node objects are covered by C87 as values, not as steps of the node heap."
],
"C89": [
null,
"c89_run holds of every program; c89_safe and c89_right are for programs that stay well typed whatever the searches answer. c89_elsewhere: the answer may be a child that does not contain the range."
],
"C90": [
null,
"Handles on mutable trees, as in C88; nodes of more than u32::MAX bytes are in C89 only."
],
"C91": [
null,
"std's debug_struct, debug_tuple and PadAdapter are modelled after their source; no format options but # are given (no width, no hexadecimal); Debug of str is a parameter."
],
"C92": [
null,
"c92_edited: handles on any tree after any program, in builds where no length wraps; c92_wrapped: immutable trees. Format options other than # are not modelled. The derived Debug of cursor::SyntaxToken and of the iterators, which shows addresses, is not modelled."
]
}