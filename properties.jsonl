{"id": "C01", "title": "Stored text length is the length of the text", "statement": "For every green node that can be built through the public API (GreenToken::new, GreenNode::new, builder, replace_child, insert_child, remove_child, splice_children, replace_with), text_len() equals the UTF-8 byte length of the text printed by Display, and is at most u32::MAX.", "quantifier": "all finite green trees obtainable by any combination of the constructors and edits", "why_tests_cant": "The set of trees is infinite and recursive; a test fixes a handful of shapes and sizes.", "anchors": ["src/green/node.rs: GreenNode::new, GreenNodeData::text_len", "src/green/token.rs: GreenTokenData::text_len"]}
{"id": "C02", "title": "u32 overflow of the text length never goes unnoticed in checked builds, and does in release builds", "statement": "With overflow checks GreenNode::new panics exactly when the total text of the children exceeds u32::MAX; without overflow checks it agrees with the checked build whenever the total fits, and returns a node with a wrong length when it does not.", "quantifier": "all child lists, both arithmetic profiles", "why_tests_cant": "The failing inputs are 4 GiB long and depend on the build profile.", "anchors": ["src/green/node.rs: GreenNode::new"]}
{"id": "C03", "title": "Children tile their parent", "statement": "The absolute text ranges of the children (nodes and tokens) of any node tile it: the first child starts at the node's start, every next child starts exactly where the previous one ends, the last ends at the node's end; no gaps, no overlaps.", "quantifier": "all nodes of all trees, all child counts", "why_tests_cant": "The set of trees is infinite and recursive; a test fixes a handful of shapes and sizes.", "anchors": ["src/green/node.rs: GreenNode::new, GreenChild::rel_offset", "src/cursor.rs: SyntaxNode::children_with_tokens, text_range"]}
{"id": "C04", "title": "Green edits change exactly the designated children", "statement": "replace_child/insert_child/remove_child/splice_children return a node of the same kind whose child list is the old list with exactly the requested range replaced; the other children are the same allocations; they panic exactly when the range is out of bounds; replace_child with an index that is not a child silently returns an equal copy.", "quantifier": "all nodes, all indices/ranges, all replacement lists", "why_tests_cant": "Boundary indices times arbitrary child lists.", "anchors": ["src/green/node.rs: replace_child, insert_child, remove_child, splice_children"]}
{"id": "C05", "title": "Green equality and hashing are structural", "statement": "Two green nodes/tokens compare equal iff they have the same kinds, token texts and nesting, irrespective of sharing or how they were built; equal values feed identical data to any hasher.", "quantifier": "all pairs of constructible green trees", "why_tests_cant": "All pairs of recursive structures with arbitrary sharing.", "anchors": ["src/green/node.rs: PartialEq, Hash", "src/green/token.rs: PartialEq", "src/arc.rs: PartialEq for Arc/ThinArc"]}
{"id": "C06", "title": "Builder is lossless", "statement": "If any sequence of builder calls followed by finish() succeeds, the text of the resulting tree is the concatenation of the texts passed to token(), in call order: no token is dropped, duplicated or reordered, whatever start/finish/checkpoint calls are interleaved.", "quantifier": "all call sequences of any length, all initial caches", "why_tests_cant": "Call sequences are unbounded and include arbitrary checkpoint misuse.", "anchors": ["src/green/builder.rs: GreenNodeBuilder", "src/green/node_cache.rs: NodeCache::node, NodeCache::token"]}
{"id": "C07", "title": "Builder reproduces the described tree", "statement": "Replaying the start_node/token/finish_node events of any tree and calling finish() yields a tree with exactly that structure.", "quantifier": "all trees, all initial cache contents", "why_tests_cant": "The set of trees is infinite and recursive; a test fixes a handful of shapes and sizes.", "anchors": ["src/green/builder.rs: start_node, token, finish_node, finish"]}
{"id": "C08", "title": "Checkpoints wrap retroactively", "statement": "start_node_at(checkpoint, k) has the same effect as if start_node(k) had been called at the moment the checkpoint was taken, provided the calls in between are balanced.", "quantifier": "all balanced call sequences before and after", "why_tests_cant": "Unbounded sequences of calls between the checkpoint and its use.", "anchors": ["src/green/builder.rs: checkpoint, start_node_at"]}
{"id": "C09", "title": "Builder never drains or wraps children of an outer node, and panics exactly on misuse", "statement": "In every reachable builder state the open nodes own disjoint consecutive runs of the pending children; finish_node panics exactly when no node is open, start_node_at exactly when the checkpoint lies beyond the pending children or before the innermost open node's first child, finish exactly when the pending result is not a single node.", "quantifier": "all reachable builder states, i.e. all call sequences", "why_tests_cant": "A history property.", "anchors": ["src/green/builder.rs: finish_node, start_node_at, finish"]}
{"id": "C10", "title": "finish() accepts only fully closed trees", "statement": "finish() succeeds only if every started node has been finished.", "quantifier": "all call sequences", "why_tests_cant": "A history property.", "anchors": ["src/green/builder.rs: finish"]}
{"id": "C11", "title": "The cache is semantically transparent", "statement": "Building with any cache (fresh or used before), any hash function and any hash-table probing behaviour gives a structurally equal tree to building without one.", "quantifier": "all call sequences, caches, hash functions (including fully colliding ones) and table behaviours", "why_tests_cant": "Hash collisions cannot be enumerated.", "anchors": ["src/green/node_cache.rs: NodeCache::node, NodeCache::token"]}
{"id": "C12", "title": "The cache deduplicates", "statement": "With one cache, asking twice for a token of the same kind and text returns the same allocation, and so does asking twice for a node of the same kind over the same (up to three, themselves cached) children, whatever was cached in between and even if the table was rehashed.", "quantifier": "all histories of cache operations, all hash functions", "why_tests_cant": "History property over an unbounded table; the historic bug it mentions was silent.", "anchors": ["src/green/node_cache.rs: NodeCache::node, NodeCache::token, node_hash, token_hash"]}
{"id": "C13", "title": "Absolute offsets are exact", "statement": "For every element reachable by navigation, text_range() is the position of its text in the whole text: the slice of the root's text at that range is the element's text; no u32 arithmetic on the way overflows.", "quantifier": "all trees, all elements, both mutable and immutable trees", "why_tests_cant": "The set of trees is infinite and recursive; a test fixes a handful of shapes and sizes.", "anchors": ["src/cursor.rs: NodeData::offset, offset_mut, text_range, new_child"]}
{"id": "C14", "title": "Parent/child navigation is consistent", "statement": "Every element returned by a child accessor of n has n as parent and index() equal to its position in n's child list; first_child/last_child/first_child_or_token/last_child_or_token and the by-kind variants return exactly the first/last matching child.", "quantifier": "all trees, nodes and kind predicates", "why_tests_cant": "The set of trees is infinite and recursive; a test fixes a handful of shapes and sizes.", "anchors": ["src/cursor.rs: first_child, last_child, first_child_or_token, last_child_or_token, first_child_by_kind, first_child_or_token_by_kind, parent, index"]}
{"id": "C15", "title": "Sibling navigation is exact and invertible", "statement": "next_sibling(_or_token)(_by_kind) and prev_sibling(_or_token) return the nearest following/preceding sibling that qualifies, or None exactly when there is none; next and prev are inverse to each other.", "quantifier": "all trees, elements and kind predicates", "why_tests_cant": "The set of trees is infinite and recursive; a test fixes a handful of shapes and sizes.", "anchors": ["src/cursor.rs: NodeData::next_sibling, next_sibling_by_kind, prev_sibling, next_sibling_or_token, next_sibling_or_token_by_kind, prev_sibling_or_token"]}
{"id": "C16", "title": "Child and sibling iterators enumerate exactly", "statement": "children(), children_with_tokens(), their by_kind forms (also when started midway), siblings(), siblings_with_tokens() and ancestors() yield exactly the right elements, each once, in order, and then stop.", "quantifier": "all trees, starting nodes, kind predicates and numbers of next() calls", "why_tests_cant": "Any prefix of any iteration over any tree.", "anchors": ["src/cursor.rs: SyntaxNodeChildren, SyntaxElementChildren, SyntaxNodeChildrenByKind, SyntaxElementChildrenByKind, siblings, siblings_with_tokens, ancestors"]}
{"id": "C17", "title": "Preorder traversal is a well-nested walk of exactly the subtree", "statement": "preorder()/preorder_with_tokens() yield, for every node of the subtree, exactly one Enter and one Leave, properly nested, in document order, never leaving the subtree, and terminate; descendants() and descendants_with_tokens() are the Enter events.", "quantifier": "all trees and starting nodes", "why_tests_cant": "The set of trees is infinite and recursive; a test fixes a handful of shapes and sizes.", "anchors": ["src/cursor.rs: Preorder, PreorderWithTokens, descendants, descendants_with_tokens"]}
{"id": "C18", "title": "skip_subtree skips exactly the subtree just entered", "statement": "Calling skip_subtree() right after an Enter(n) event makes the walk continue with Leave(n) as if n had no children. Calling it at another time is not safe (it may leave the subtree, skip siblings, or panic).", "quantifier": "all trees and all points of the walk", "why_tests_cant": "Any subset of nodes may be skipped.", "anchors": ["src/cursor.rs: Preorder::do_skip, PreorderWithTokens::do_skip"]}
{"id": "C19", "title": "first_token/last_token return the leftmost/rightmost token", "statement": "first_token() (last_token()) returns the first (last) token of the subtree, or None exactly if it has no tokens.", "quantifier": "all trees and nodes", "why_tests_cant": "The set of trees is infinite and recursive; a test fixes a handful of shapes and sizes.", "anchors": ["src/cursor.rs: first_token, last_token"]}
{"id": "C20", "title": "next_token/prev_token walk the tokens of the whole tree in order", "statement": "next_token() (prev_token()) returns the token following (preceding) this one in document order, or None exactly for the last (first) token.", "quantifier": "all trees and tokens", "why_tests_cant": "The set of trees is infinite and recursive; a test fixes a handful of shapes and sizes.", "anchors": ["src/cursor.rs: SyntaxToken::next_token, prev_token"]}
{"id": "C21", "title": "token_at_offset finds exactly the touching tokens", "statement": "For an offset within the node's range token_at_offset never panics and returns exactly the non-empty tokens of the subtree whose range touches the offset: None for an empty node, one token if strictly inside, two adjacent ones if on an inner boundary. For an offset outside the range it panics.", "quantifier": "all trees, nodes and offsets", "why_tests_cant": "Panics depend on the nesting of empty nodes and boundaries.", "anchors": ["src/cursor.rs: SyntaxNode::token_at_offset, SyntaxElement::token_at_offset"]}
{"id": "C22", "title": "covering_element returns the deepest covering element", "statement": "For a range within the node, covering_element never panics and returns an element of the subtree containing the range none of whose children contains it; for a non-empty range every element of the subtree that contains the range is an ancestor of (or equal to) the result. It panics for other ranges.", "quantifier": "all trees, nodes and ranges", "why_tests_cant": "Binary search with empty ranges has many boundary cases.", "anchors": ["src/cursor.rs: covering_element, child_or_token_at_range", "src/green/node.rs: child_at_range"]}
{"id": "C23", "title": "child_or_token_at_range returns a child containing the range, whenever there is one", "statement": "For any range starting at or after the node's start, child_or_token_at_range returns a child whose range contains the range if there is such a child, and None otherwise; for a non-empty range it is the only one.", "quantifier": "all nodes and ranges", "why_tests_cant": "Binary search over arbitrary child lists with empty children.", "anchors": ["src/cursor.rs: child_or_token_at_range", "src/green/node.rs: child_at_range"]}
{"id": "C24", "title": "TokenAtOffset conversions agree", "statement": "left_biased/right_biased/map and the Iterator/ExactSizeIterator implementation of TokenAtOffset agree with the list of its tokens.", "quantifier": "all values and element types", "why_tests_cant": "Polymorphic statement.", "anchors": ["src/utility_types.rs: TokenAtOffset"]}
{"id": "C25", "title": "replace_with rebuilds exactly the path to the root", "statement": "node.replace_with(g) / token.replace_with(t) returns the root's green tree with exactly that element replaced; its text is the old text with the element's range replaced; all subtrees off the path are the same allocations; it panics exactly on a kind mismatch (or a parentless token).", "quantifier": "all trees, elements and replacements", "why_tests_cant": "The set of trees is infinite and recursive; a test fixes a handful of shapes and sizes.", "anchors": ["src/cursor.rs: SyntaxNode::replace_with, SyntaxToken::replace_with"]}
{"id": "C26", "title": "Node equality is identity of position", "statement": "Within one tree two elements compare equal (== and hash) iff they are the same element.", "quantifier": "all trees and pairs of elements", "why_tests_cant": "Depends on sharing introduced by the cache and on empty elements.", "anchors": ["src/cursor.rs: PartialEq for SyntaxNode/SyntaxToken, NodeData::key"]}
{"id": "C27", "title": "SyntaxNodePtr round-trips", "statement": "For a node n of an immutable tree SyntaxNodePtr::new(n).to_node(root) returns n.", "quantifier": "all trees and nodes", "why_tests_cant": "Depends on empty nodes and on chains of nodes with equal ranges.", "anchors": ["src/ast.rs: SyntaxNodePtr::new, try_to_node, to_node"]}
{"id": "C28", "title": "SyntaxNodePtr resolution is sound and total", "statement": "try_to_node never panics on an immutable tree for any pointer (also one made for a different tree); a node it returns is in the tree and has the pointer's kind and range; it returns None for a non-root argument.", "quantifier": "all trees and pointers, including stale ones", "why_tests_cant": "Pointers into other trees.", "anchors": ["src/ast.rs: SyntaxNodePtr::try_to_node, AstPtr"]}
{"id": "C29", "title": "AST accessors select by cast", "statement": "support::child, support::children and support::token return exactly the first castable child, all castable children in order, and the first token of the kind; AstPtr preserves node type.", "quantifier": "all nodes, all cast functions", "why_tests_cant": "Polymorphic over user casts.", "anchors": ["src/ast.rs: support, AstChildren, AstPtr"]}
{"id": "C30", "title": "SyntaxText denotes the covered text", "statement": "SyntaxText::to_string of a node is the node's text; len() is its byte length; slice(r) denotes the sub-slice and panics exactly when r is out of bounds; for_each_chunk chunks concatenate to it, and slicing panics exactly when a bound is not a char boundary.", "quantifier": "all trees, all nestings of slices", "why_tests_cant": "The set of trees is infinite and recursive; a test fixes a handful of shapes and sizes.", "anchors": ["src/syntax_text.rs: SyntaxText::new, slice, try_fold_chunks, tokens_with_ranges, Display"]}
{"id": "C31", "title": "SyntaxText equality is text equality", "statement": "Two SyntaxTexts (or a SyntaxText and a str) compare equal iff their strings are equal, regardless of how the text is split into tokens.", "quantifier": "all pairs of texts and token splittings", "why_tests_cant": "All pairs of splittings, empty tokens included.", "anchors": ["src/syntax_text.rs: PartialEq impls, zip_texts"]}
{"id": "C32", "title": "SyntaxText character queries agree with the string", "statement": "find_char, contains_char and char_at return what the same query on the string would: first byte offset of the char, membership, the char starting at an offset.", "quantifier": "all texts, chars and offsets", "why_tests_cant": "Chunk boundaries times multi-byte characters.", "anchors": ["src/syntax_text.rs: find_char, contains_char, char_at"]}
{"id": "C33", "title": "clone_for_update gives an equivalent mutable tree", "statement": "clone_for_update returns a mutable node at the same position of an equal tree, sharing the green tree; clone_subtree returns a root with the same green node; the original is unaffected by later mutations.", "quantifier": "all trees, nodes, and histories of mutations", "why_tests_cant": "Histories.", "anchors": ["src/cursor.rs: clone_for_update, clone_subtree"]}
{"id": "C34", "title": "detach removes exactly one subtree", "statement": "After n.detach() on a mutable tree the old tree is the tree with exactly that child removed, n is the root of its old subtree, and every other live handle still denotes the element it denoted before (with adjusted index/offset/path).", "quantifier": "all mutable trees, all sets of live handles, all histories", "why_tests_cant": "Aliasing between arbitrary sets of live handles.", "anchors": ["src/cursor.rs: NodeData::detach, respine", "src/sll.rs: adjust, unlink"]}
{"id": "C35", "title": "Attaching inserts exactly one subtree", "statement": "Inserting an element at index i (splice_children(i..i, [e])) detaches it from where it was and makes it the i-th child; the tree is otherwise unchanged and every other live handle still denotes the element it denoted before; it panics if i exceeds the child count.", "quantifier": "all mutable trees, all sets of live handles, all histories", "why_tests_cant": "Aliasing between arbitrary sets of live handles.", "anchors": ["src/cursor.rs: SyntaxNode::attach_child, NodeData::attach_child, respine", "src/sll.rs: link, adjust, add_to_sll"]}
{"id": "C36", "title": "splice_children replaces exactly the given range", "statement": "splice_children(a..b, els) removes the children with indices in a..b and inserts els at a.", "quantifier": "all nodes, ranges and element lists", "why_tests_cant": "Iterates while detaching.", "anchors": ["src/cursor.rs: SyntaxNode::splice_children, SyntaxElementChildren::next"]}
{"id": "C37", "title": "Detaching children while iterating over them visits all of them", "statement": "for c in node.children() { c.detach() } visits and detaches every child (the module documentation promises this).", "quantifier": "all nodes and child counts", "why_tests_cant": "Iterator invalidation depends on aliasing.", "anchors": ["src/cursor.rs: SyntaxNodeChildren::next, SyntaxElementChildren::next, module comment lines 55-59"]}
{"id": "C38", "title": "Mutations never affect other trees", "statement": "A mutation of one mutable tree leaves all green trees and all nodes of other trees (mutable or immutable) unchanged.", "quantifier": "all forests and mutation histories", "why_tests_cant": "Structural sharing between trees.", "anchors": ["src/cursor.rs: respine", "src/green/node.rs: replace_child"]}
{"id": "C39", "title": "Mutation of immutable trees is rejected", "statement": "detach and splice_children panic on immutable trees without changing anything; mutability is uniform within a tree and never changes.", "quantifier": "all trees and histories", "why_tests_cant": "History property.", "anchors": ["src/cursor.rs: detach, splice_children, attach_child, is_mutable"]}
{"id": "C40", "title": "No use-after-free of tree nodes", "statement": "In every reachable state, whatever handles were cloned, dropped, detached or attached in whatever order, every live handle's element and all its ancestors are allocated, and no API call dereferences freed memory or a null/dangling link.", "quantifier": "all histories of API calls over any number of trees and handles", "why_tests_cant": "Memory safety over all histories of an unsafe reference-counting scheme.", "anchors": ["src/cursor.rs: NodeData::new, inc_rc, dec_rc, free, Drop, to_next_sibling", "src/sll.rs"]}
{"id": "C41", "title": "No leaks", "statement": "Once all handles are dropped, no node data remains allocated and every green node taken over by a root has been released exactly once.", "quantifier": "all histories of API calls", "why_tests_cant": "Reference counts over all histories.", "anchors": ["src/cursor.rs: free, respine, detach, attach_child, to_next_sibling"]}
{"id": "C42", "title": "One live node per position of a mutable tree", "statement": "In a mutable tree two live handles that denote the same element share one node object, so that a mutation through one is seen through the other; live siblings are kept sorted by index.", "quantifier": "all histories", "why_tests_cant": "Invariant of an intrusive linked list over all histories.", "anchors": ["src/sll.rs: link, add_to_sll, unlink, adjust", "src/cursor.rs: NodeData::new"]}
{"id": "C43", "title": "In-place iteration never disturbs other handles", "statement": "to_next_sibling/to_next_sibling_or_token, which may overwrite the node object in place, return the same element as next_sibling(_or_token) and change no other handle's element.", "quantifier": "all trees and sets of live handles", "why_tests_cant": "Aliasing.", "anchors": ["src/cursor.rs: to_next_sibling, to_next_sibling_or_token, can_take_ptr"]}
{"id": "C44", "title": "Every API call terminates", "statement": "Navigation, traversal and mutation calls terminate on every reachable state.", "quantifier": "all states and calls", "why_tests_cant": "Loops over linked structures; attaching a node below itself.", "anchors": ["src/cursor.rs: respine, free, offset_mut", "src/sll.rs: link, adjust"]}
{"id": "C45", "title": "Debug dump is complete", "statement": "The alternate Debug output lists every element of the subtree once in preorder, indented by its depth, and its level counter never underflows and ends at zero; the truncation of long token texts always finds a char boundary.", "quantifier": "all trees and token texts", "why_tests_cant": "Multi-byte characters around the cut.", "anchors": ["src/api.rs: Debug for SyntaxNode, SyntaxToken"]}
{"id": "C46", "title": "Display prints the text", "statement": "Display of a syntax node, green node or token prints exactly its text.", "quantifier": "all trees", "why_tests_cant": "The set of trees is infinite and recursive; a test fixes a handful of shapes and sizes.", "anchors": ["src/cursor.rs: Display", "src/green/node.rs: Display"]}
{"id": "C47", "title": "Serialisation is faithful", "statement": "The serialised form of a node contains the kind, range and children/text of every element in order, so that the tree can be reconstructed from it.", "quantifier": "all trees", "why_tests_cant": "The set of trees is infinite and recursive; a test fixes a handful of shapes and sizes.", "anchors": ["src/serde_impls.rs"]}
{"id": "C48", "title": "Reference counting frees green nodes exactly once", "statement": "Under every interleaving of clone and drop by any number of threads a green node's memory is freed exactly once, after the last reference is gone; unique access is granted only when there is one reference.", "quantifier": "all interleavings, any number of threads", "why_tests_cant": "Schedules.", "anchors": ["src/arc.rs: Arc::clone, drop, get_mut, is_unique"]}
{"id": "C49", "title": "Allocation layout arithmetic is safe", "statement": "The size computed for a header-and-slice allocation holds header, length and all items without overlap, is a multiple of the alignment, and any overflow is detected rather than wrapping.", "quantifier": "all item counts and sizes", "why_tests_cant": "Overflow boundaries of usize.", "anchors": ["src/arc.rs: ThinArc::from_header_and_iter"]}
{"id": "C50", "title": "Green children iterators agree with the child list from both ends", "statement": "GreenNodeData::children() yields each child once under any interleaving of next, next_back, nth and nth_back, and len() is always the number remaining.", "quantifier": "all nodes and all interleavings of calls", "why_tests_cant": "Interleavings of calls.", "anchors": ["src/green/node.rs: Children"]}
{"id": "C51", "title": "The tutorial parser is lossless and total", "statement": "The s-expression parser of the tutorial terminates for every token sequence and panics only if the text exceeds 2^32-1 bytes; the tree is that of a stack of open lists, its text and tokens are the input, and errors are reported exactly if parentheses do not match.", "quantifier": "all token sequences", "why_tests_cant": "All inputs.", "anchors": ["examples/s_expressions.rs: parse"]}
{"id": "C52", "title": "The math example parser builds the tree of its grammar and keeps what it consumes", "statement": "The arithmetic example parser terminates on every token sequence and its tree contains exactly the tokens consumed, in order; the tree is that of an unambiguous left-associative grammar with two precedences, and a well-formed input is consumed completely.", "quantifier": "all token sequences", "why_tests_cant": "All inputs.", "anchors": ["examples/math.rs: Parser"]}
{"id": "C53", "title": "Format options apply to the whole text of a node", "statement": "Formatting a syntax node with a width or precision gives what formatting its text as a string gives.", "quantifier": "all trees and format options", "why_tests_cant": "Tests print nodes with {} only.", "anchors": ["src/cursor.rs: Display for SyntaxNode"]}
{"id": "C54", "title": "Evaluating a parsed expression gives its value", "statement": "Parsing any written form of an arithmetic expression with the tutorial parser and evaluating the tree through the typed layer gives the value of the expression, including division by zero and overflow; on malformed input evaluation still ends without reaching an unreachable!.", "quantifier": "all expressions, all spacings, all token sequences", "why_tests_cant": "All inputs.", "anchors": ["examples/s_expressions.rs: Sexp::eval, List::eval, Atom::text"]}
{"id": "C55", "title": "Iterators visit exactly the elements they should on every tree a client can hold", "statement": "children, children_with_tokens, by_kind, siblings, siblings_with_tokens, ancestors, descendants, descendants_with_tokens and preorder (with skip_subtree), run on the node heap after any client program, mutable tree or not, yield handles at exactly the right positions; nothing else changes and no handle is lost or left over.", "quantifier": "all client programs, allocators, trees, elements and predicates", "why_tests_cant": "Tests iterate over freshly built immutable trees.", "anchors": ["src/cursor.rs: SyntaxNodeChildren, SyntaxElementChildren, Preorder, PreorderWithTokens, ancestors, siblings"]}
{"id": "C56", "title": "Token search works on every tree a client can hold", "statement": "first_token, last_token, next_token, prev_token, token_at_offset and covering_element, run on the node heap after any client program, find the tokens and elements their specifications name, and panic exactly for offsets and ranges outside the element.", "quantifier": "all client programs, allocators, trees, elements and offsets", "why_tests_cant": "Tests use a few trees.", "anchors": ["src/cursor.rs: SyntaxNode::token_at_offset, covering_element, first_token, SyntaxToken::next_token"]}
{"id": "C57", "title": "No undefined behaviour in clients that react to what they see", "statement": "A client that chooses its next call by what earlier calls returned, including comparisons of handles, never causes undefined behaviour, and ends in a state that a fixed sequence of calls also reaches.", "quantifier": "all adaptive programs that only use live handles of the right type", "why_tests_cant": "All programs.", "anchors": ["src/cursor.rs: SyntaxNode, SyntaxToken, SyntaxElement"]}
{"id": "C58", "title": "Any set of children can be detached through handles in any order", "statement": "Detaching several children of a node through handles obtained earlier, in any order, removes exactly those children and leaves every other handle on its element; collecting children() first and then detaching each removes them all.", "quantifier": "all client programs, nodes, sets of children and orders", "why_tests_cant": "Orders and aliasing.", "anchors": ["src/cursor.rs: SyntaxNode::detach, NodeData::detach, SyntaxNode::children"]}
{"id": "C59", "title": "Detaching an element and inserting it where it was changes nothing", "statement": "After detach and splice_children(i..i, [element]) at the old index every other handle shows what it showed before.", "quantifier": "all client programs, nodes and indices", "why_tests_cant": "All handles and positions.", "anchors": ["src/cursor.rs: SyntaxNode::detach, SyntaxNode::splice_children"]}
{"id": "C60", "title": "Debug and Display of any handle show the tree as it is now", "statement": "After any client program, edits included, {:#?} of a node prints one indented line per element of its present subtree in document order, {:?} prints one line, {} prints the text; a failing writer stops them at the failed write; no handle is left over; the only panic is a tree deeper than i32.", "quantifier": "all client programs, allocators, handles and writers", "why_tests_cant": "Tests format a few trees.", "anchors": ["src/api.rs: fmt::Debug for SyntaxNode, SyntaxToken", "src/cursor.rs: fmt::Display for SyntaxNode"]}
{"id": "C61", "title": "A SyntaxText reads the present text of its node at the range it was made with", "statement": "text() gives the node and its range; to_string gives the present text of the node in that range, clamped to the node's present range, and panics exactly when an end is inside a char; slice, find_char, contains_char, char_at and == str agree with that string.", "quantifier": "all client programs, texts, later edits, slices and arguments", "why_tests_cant": "Texts that outlive an edit are not tested.", "anchors": ["src/syntax_text.rs: SyntaxText"]}
{"id": "C62", "title": "Comparing two SyntaxTexts compares their strings", "statement": "t1 == t2 exactly when to_string of both agree, also for texts that outlived an edit of their tree.", "quantifier": "all client programs and pairs of texts", "why_tests_cant": "Texts that outlive an edit are not tested.", "anchors": ["src/syntax_text.rs: PartialEq for SyntaxText, zip_texts"]}
{"id": "C63", "title": "A pointer finds its node again exactly if it is not hidden, on every tree a client can hold", "statement": "SyntaxNodePtr::new and resolution, run on the node heap after any client program: on a mutable tree both panic; on an immutable node that is not a root resolution gives none; on a root it gives the outermost node on the way down to the range with the pointer's kind and range; AstPtr adds the cast; no handle is lost or left over.", "quantifier": "all client programs, allocators, trees, pointers and casts", "why_tests_cant": "Tests resolve pointers on one tree.", "anchors": ["src/ast.rs: SyntaxNodePtr, AstPtr"]}
{"id": "C64", "title": "The typed accessors return what the child lists say", "statement": "support::child, support::children and support::token, run on the node heap after any client program, mutable tree or not, return exactly the (first) children that cast, or the first token of the kind; nothing else changes and no handle is lost or left over.", "quantifier": "all client programs, allocators, nodes and casts", "why_tests_cant": "All trees and casts.", "anchors": ["src/ast.rs: support, AstChildren"]}
{"id": "C65", "title": "Typed copies are separate trees", "statement": "AstNode::clone_for_update gives a mutable copy of the whole tree and a handle at the same position, and panics exactly on a mutable tree or if the cast fails on the copy; clone_subtree gives an immutable tree of the node alone and panics exactly if the cast fails on the new root.", "quantifier": "all client programs, allocators, nodes and casts", "why_tests_cant": "All trees and casts.", "anchors": ["src/ast.rs: AstNode::clone_for_update, clone_subtree"]}
{"id": "C66", "title": "replace_with gives the tree with that one element exchanged", "statement": "SyntaxNode::replace_with and SyntaxToken::replace_with, run on the node heap after any client program: they return a green tree that is the whole present tree with the element's subtree exchanged, and leave every tree, handle and other green element alone; they panic exactly if the kinds differ, the new text is longer than u32::MAX, or the token has no parent. The bytes outside the element's range stay.", "quantifier": "all client programs, allocators, elements of mutable and immutable trees, replacements", "why_tests_cant": "Tests replace in a few trees.", "anchors": ["src/cursor.rs: SyntaxNode::replace_with, SyntaxToken::replace_with", "src/green/node.rs: GreenNodeData::replace_child"]}
{"id": "C67", "title": "Green elements a client holds are immutable values", "statement": "A held GreenNode or GreenToken shows the same tree until it is dropped, whatever else happens, edits of trees built on it included; splice_children, replace_child and children().nth(i).to_owned() give exactly the spliced node, the node with one child exchanged and the child, and panic exactly on a bad range or a text longer than u32::MAX.", "quantifier": "all client programs, allocators and green elements", "why_tests_cant": "Sharing of green nodes between trees and edits.", "anchors": ["src/green/node.rs: GreenNodeData::splice_children, replace_child, children", "src/cursor.rs: SyntaxNode::green"]}
{"id": "C68", "title": "A client may catch the panics of refused calls and go on", "statement": "If a client catches panics from detach or splice_children in an immutable tree, splice_children with an element of an immutable tree, clone_for_update of a mutable tree, child_or_token_at_range of a range before the node, or a green splice with a bad range, it is afterwards in exactly the state (variables and heap) of the client that made no such call and dropped the arguments; for splice_children the elements before the refused one are inserted. No later call has undefined behaviour because of the panic.", "quantifier": "all client programs with any number of such panics, all allocators", "why_tests_cant": "Needs catch_unwind around every call.", "anchors": ["src/cursor.rs: SyntaxNode::splice_children, detach, attach_child, clone_for_update, child_or_token_at_range", "src/green/node.rs: GreenNodeData::splice_children"]}
{"id": "C69", "title": "Green trees are values for every client of the green API", "statement": "Run on reference-counted allocations, a program of GreenToken::new, GreenNode::new, clone, drop, children, splice_children, insert_child, remove_child and replace_child that catches panics never touches freed memory, and every handle reads as the tree it was made as, whatever was dropped, edited or panicked since.", "quantifier": "all programs, allocators and both build profiles", "why_tests_cant": "Use after free depends on the order of drops.", "anchors": ["src/arc.rs: Arc, ThinArc", "src/green/node.rs: GreenNode, GreenNodeData", "src/green/token.rs: GreenToken"]}
{"id": "C70", "title": "Reference counts are exact and the last handle frees everything", "statement": "After any program in which no construction overflowed, every count is the number of handles and stored pointers to the allocation and positive, every allocation can be reached from a handle, and no memory is in use when no handle is left.", "quantifier": "all programs, allocators and both build profiles", "why_tests_cant": "Leaks are not observable in tests.", "anchors": ["src/arc.rs: Drop for Arc, Clone for Arc", "src/green/node.rs: GreenNodeData::splice_children, replace_child"]}
{"id": "C71", "title": "Memory is reclaimed also after a construction has panicked", "statement": "When no handle is left no memory is in use, also if GreenNode::new has panicked because the text is longer than u32::MAX.", "quantifier": "all programs that catch panics, allocators and both build profiles", "why_tests_cant": "Needs 4 GiB of text and catch_unwind.", "anchors": ["src/arc.rs: ThinArc::from_header_and_iter", "src/green/node.rs: GreenNode::new"]}
{"id": "C72", "title": "Dropping a tree nests as deep as the tree is high", "statement": "The drop of a green handle is recursive: a stack for as many nested calls as the tree is high always suffices, and for every bound there is a tree whose drop exceeds it.", "quantifier": "all programs, allocators and trees", "why_tests_cant": "Tests have shallow trees.", "anchors": ["src/arc.rs: Arc::drop_slow"]}
{"id": "C73", "title": "Ownership of green elements in the node heap is the reference counting of arc.rs", "statement": "The list of owned green elements with which the node heap is modelled evolves as the counted memory does: to_owned, drop and the three constructors that edits use succeed and panic alike on both, and an element is live in the one exactly if it is allocated in the other (up to leaked nodes).", "quantifier": "all heaps, memories, allocators and elements", "why_tests_cant": "Relates two models.", "anchors": ["src/arc.rs: Arc", "src/cursor.rs: NodeData::respine, attach_child, detach"]}
{"id": "C74", "title": "Release builds show what debug builds show", "statement": "A program shows the same answers and leaves the same memory in a release build (no overflow checks, no debug assertions) as in a debug build, for every call, iterator, search, edit, text function and formatter.", "quantifier": "all programs, allocators and results", "why_tests_cant": "Tests run in one profile; a difference needs an overflow or a failing debug assertion.", "anchors": ["src/cursor.rs: NodeData, SyntaxNode, SyntaxToken, SyntaxElement", "src/sll.rs: unlink, adjust", "src/green/node.rs: GreenNode::new", "src/syntax_text.rs: SyntaxText"]}
{"id": "C75", "title": "Typed nodes, tokens and elements answer for the tree at their position", "statement": "For every language, the methods of the typed SyntaxNode, SyntaxToken and SyntaxElement that read one element (kind, range, index, text, parent, child and sibling accessors also by kind, first/last/next/previous token, token_at_offset, covering_element, child_or_token_at_range) return exactly what the tree has at the corresponding position, a node wrapped as a node and a token wrapped as a token, and kind matchers see the kinds of the language.", "quantifier": "all trees, positions, languages and matchers", "why_tests_cant": "The wrappers are written by hand for each method; a wrong delegation shows only where the two methods differ.", "anchors": ["src/api.rs: SyntaxNode, SyntaxToken, SyntaxElement", "src/utility_types.rs: NodeOrToken, TokenAtOffset::map"]}
{"id": "C76", "title": "Typed iterators and walks yield the typed elements of the subtree in order", "statement": "For every language, children, children_with_tokens, by_kind called on either before the first next, siblings, ancestors (of nodes, tokens and elements), descendants and the two preorder walks with any subtrees skipped yield exactly the typed elements at the positions the specification names, in order, and then end.", "quantifier": "all trees, positions, languages, matchers and sets of skipped subtrees", "why_tests_cant": "As for C75; walks multiply the cases.", "anchors": ["src/api.rs: SyntaxNodeChildren, SyntaxElementChildren, Preorder, PreorderWithTokens, SyntaxElement::ancestors", "src/utility_types.rs: WalkEvent::map"]}
{"id": "C77", "title": "The chunks of a text are the parts of its tokens, visited in order until the closure stops", "statement": "try_for_each_chunk and for_each_chunk call their closure once for each token that meets or touches the range of the text, in document order, with the part of the token inside the range, until the closure returns an error, which is returned; a bound inside a character panics only when its token is reached. slice accepts each kind of range with the meaning of that range.", "quantifier": "all trees, texts, closures with state and range arguments", "why_tests_cant": "The closure is arbitrary; tests use a few.", "anchors": ["src/syntax_text.rs: try_for_each_chunk, for_each_chunk, tokens_with_ranges, SyntaxTextRange"]}
{"id": "C78", "title": "Display of green trees writes the token texts and agrees with syntax trees", "statement": "Display of a green node or token hands the text of each token in document order to the writer, ignores format options, stops at the first error of the writer, and does exactly what Display of the syntax node or token on it does without options.", "quantifier": "all trees, writers (also failing ones) and options", "why_tests_cant": "A failing writer and options are not tested.", "anchors": ["src/green/node.rs: Display for GreenNode, GreenNodeData", "src/green/token.rs: Display for GreenToken, GreenTokenData", "src/cursor.rs: Display for SyntaxNode, SyntaxToken"]}
{"id": "C79", "title": "Builders and caches on counted memory do what builders without a cache do on trees", "statement": "A program that uses any number of GreenNodeBuilders, NodeCaches and green handles, drops them in any order and catches panics never touches freed memory; each call returns or panics as the same call does on trees without any cache, although the cache compares children by address and freed addresses are reused; every handle and every element of a builder reads as the tree it was made as. Counts are exact; all memory is reachable from a handle, a cache, a builder or a node whose construction panicked; without those no memory is in use.", "quantifier": "all programs, allocators, hash functions, table layouts and both build profiles", "why_tests_cant": "A stale address in the cache shows only if the allocator reuses it.", "anchors": ["src/green/node_cache.rs: NodeCache", "src/green/builder.rs: GreenNodeBuilder", "src/cow_mut.rs: CowMut", "src/arc.rs: Arc, ThinArc"]}
{"id": "C80", "title": "What is built with one cache is shared", "statement": "After any program, elements of one cache with the same tree are the same allocation; equal tokens in builders that use the same cache are the same allocation, and so are equal trees of nodes with at most three children, provided the hash function does not yield 0.", "quantifier": "all programs, allocators, hash functions, table layouts and both build profiles", "why_tests_cant": "Needs to compare addresses over long histories.", "anchors": ["src/green/node_cache.rs: NodeCache::node, NodeCache::token", "src/green/builder.rs: GreenNodeBuilder::with_cache"]}
{"id": "C81", "title": "Release builds stay memory safe and keep the right trees when text lengths wrap", "statement": "In a release build a program whose trees get longer than u32::MAX bytes never has undefined behaviour; everything it shows except lengths and ranges (positions, kinds, texts, mutability, the order of children after edits) is what the specification without any limit on lengths says; it panics only where that specification refuses a call or where text_range is asked for; counters stay exact and all memory is given back.", "quantifier": "all programs without child_or_token_at_range, allocators and texts of any length", "why_tests_cant": "Needs more than 4 GiB of text, built and edited in a release build.", "anchors": ["src/cursor.rs: NodeData, SyntaxNode::splice_children, detach", "src/sll.rs: link, unlink, adjust", "src/green/node.rs: GreenNode::new"]}
{"id": "C82", "title": "Child indices are 32 bits wide: nothing changes up to 2^32 children, beyond that iteration cycles", "statement": "In a tree whose nodes have at most 2^32 children, every navigation function, iterator, walk and search of an immutable tree gives what it would give with indices of any size. On a node with more children, elements carry their index modulo 2^32: children_with_tokens yields the children 0 to 2^32 and then 1 to 2^32 again and again without end, and replace_with on the last child replaces the child whose index is equal modulo 2^32.", "quantifier": "all trees, positions, matchers, offsets, ranges and iterator states", "why_tests_cant": "Needs a node with 2^32 children.", "anchors": ["src/cursor.rs: NodeData::index, SyntaxNode::new_child, SyntaxToken::new, SyntaxElementChildren::next, SyntaxNode::replace_with"]}
{"id": "C83", "title": "Every node object knows its place", "statement": "After any program on mutable and immutable trees, each live node object has a live parent of the same mutability whose green child at the stored index is, as the same allocation, the green element of the object; stored offsets of immutable nodes add up; objects of a mutable tree with the same parent have different indices. Hence the index fits into u32 while nodes have at most 2^32 children, and the count while variables and objects together are fewer than 2^32, so inc_rc does not abort.", "quantifier": "all programs, allocators and live objects", "why_tests_cant": "The fields are private; a wrong index shows only after further edits.", "anchors": ["src/cursor.rs: NodeData, NodeData::new, inc_rc", "src/sll.rs: adjust, link, unlink"]}
{"id": "C84", "title": "Green trees shared by threads: no schedule breaks them, drops end, nothing stays behind", "statement": "Any number of threads build, clone, send, read and drop green trees on one memory, interleaved step by step, also in the middle of a drop. Under every schedule no thread touches freed memory or frees twice, and each read gives the tree that was built. At every moment each count is the number of handles, pointers about to be dropped, leaked nodes and stored pointers; an allocation about to be freed belongs to one thread and cannot be reached from any handle. Drops end however they are interleaved; then all memory is reachable from handles. What a thread sees does not depend on the others.", "quantifier": "all schedules, numbers of threads, allocators and both build profiles", "why_tests_cant": "Tests see a few interleavings; the harmful ones are rare.", "anchors": ["src/arc.rs: Arc::clone, Drop for Arc, drop_slow, Send and Sync for ThinArc", "src/green/node.rs: GreenNode::new, children", "src/green/token.rs: GreenToken::new"]}
{"id": "C85", "title": "No data races on shared green trees", "statement": "With relaxed increments, release decrements and an acquire load by the thread that finds the last reference, no schedule of threads that build, clone, borrow, send, read and drop green trees has a data race: every access to an allocation happens after its initialisation, and its destruction and the freeing of its memory happen after every access to it, by any thread and through any parent. Threads that share only by sending handles need no other synchronisation.", "quantifier": "all schedules, numbers of threads, allocators, additional synchronisation and both build profiles", "why_tests_cant": "On the usual processors and schedules a missing ordering does not show.", "anchors": ["src/arc.rs: Arc::clone, Drop for Arc, drop_slow, Send and Sync for ThinArc", "src/green/node.rs: GreenNode::new, children"]}
{"id": "C86", "title": "Serialisation of any handle, on edited trees as well", "statement": "For each tree and position there is one list of serializer calls from which the element, and the kind, text and range of everything in it, can be read back. Serialising a handle at that position, of a mutable or immutable tree and after any edits, makes exactly these calls; if the serializer fails, it makes them up to the failing one and reports the failure. The tree is unchanged and no handle is left over. Handles on elements that differ in tree or range are serialised differently.", "quantifier": "all programs before, allocators, trees, positions and serializers", "why_tests_cant": "The edits before, the place of the failure and the leftover counts multiply.", "anchors": ["src/serde_impls.rs: Serialize for SyntaxNode, SyntaxToken, Children", "src/cursor.rs: SyntaxElementChildren"]}
{"id": "C87", "title": "Release builds store and show lengths, offsets and ranges modulo 2^32", "statement": "In a build without overflow checks, every green node stores its text length, and every child its offset, as the true value modulo 2^32; construction, edits and builders (with any cache) succeed exactly if the calls are well formed and no token among the children of a node is longer than u32::MAX, and give the tree described; equality and hashing are those of the trees. Every element of the syntax tree is at its true offset modulo 2^32, whether computed from stored offsets or added up as in mutable trees; its range is the true one with both ends modulo 2^32, and asking for it panics exactly if the end then comes before the start. So elements that end within the first 2^32-1 bytes have their true range however long the tree is; beyond that a range may panic or lie inside that of another token.", "quantifier": "all green trees, edits, builder calls, caches and positions", "why_tests_cant": "Needs more than 4 GiB of text in a release build.", "anchors": ["src/green/node.rs: GreenNode::new, splice_children, replace_child", "src/green/builder.rs: GreenNodeBuilder", "src/cursor.rs: NodeData::offset, offset_mut, text_range"]}
{"id": "C88", "title": "Release builds: ranges of handles on edited trees are the true ones modulo 2^32", "statement": "After any program in a build without overflow checks (searches by range left out), looking through a handle on a mutable tree shows the element at the handle's place, with its kind and index, and the range it has in the whole text of the tree, both ends modulo 2^32; it changes nothing and panics exactly if the end then comes before the start. So whatever ends within the first 2^32-1 bytes shows its true range however long the tree is. All green elements in variables and in node objects have the lengths and offsets of C87.", "quantifier": "all programs without child_or_token_at_range, allocators, handles on mutable trees and texts of any length", "why_tests_cant": "Needs more than 4 GiB of text, edited in a release build.", "anchors": ["src/cursor.rs: NodeData::offset_mut, text_range, respine, detach, attach_child", "src/green/node.rs: GreenNode::new, splice_children, replace_child"]}
{"id": "C89", "title": "Searches by range in release builds whose lengths have wrapped do no harm", "statement": "In a release build child_or_token_at_range on a node of a tree longer than u32::MAX bytes yields some child of the node, or none, or panics, but never has undefined behaviour. Whatever it yields, everything after goes on as if that child had been asked for: a program shows, ranges apart, what the specification says for the answers its searches gave, counters stay exact and all memory is given back. The answer need not contain the range asked for. In debug builds, and as long as no length wraps, the panics in the search are never reached and the answer is the specified one.", "quantifier": "all programs, allocators and texts of any length", "why_tests_cant": "Needs more than 4 GiB of text in a release build.", "anchors": ["src/cursor.rs: SyntaxNode::child_or_token_at_range", "src/green/node.rs: GreenNodeData::child_at_range, GreenChild::rel_range"]}
{"id": "C90", "title": "Ranges and searches in small nodes of edited trees longer than u32::MAX bytes are exact", "statement": "In a release build, after any program of tree calls with edits and searches by range, however long the texts have become: looking at a handle on a mutable tree shows the element at its place, with the range that is its true range modulo 2^32, and panics exactly if the end taken modulo 2^32 is below the start. child_or_token_at_range on a node of such a tree that itself has at most u32::MAX bytes yields a child whose range contains the one asked for, counted from the start the node reports (of several, the last that ends where the range starts, else the first), or none if there is no such child, and panics if the range asked for starts before the node does.", "quantifier": "all programs, allocators, texts of any length, handles on mutable trees and ranges", "why_tests_cant": "Needs more than 4 GiB of text in a release build.", "anchors": ["src/cursor.rs: NodeData::offset_mut, SyntaxNode::text_range, SyntaxNode::child_or_token_at_range", "src/green/node.rs: GreenNodeData::child_at_range"]}
{"id": "C91", "title": "Debug of green elements shows kind, length and number of children, or kind and text", "statement": "Debug of a green node writes GreenNode { kind: SyntaxKind(k), text_len: l, n_children: n } with its kind, the length of its text in bytes and the number of its children, in decimal; of a green token GreenToken { kind: SyntaxKind(k), text: s } with its kind and the Debug of its text; of a GreenElement the same inside Node(..) or Token(..). With {:#?} the same fields are written one per line, indented by four spaces for each level, with a comma after each. It never panics; if the writer fails, the failure is reported and a prefix has been written. Nodes that differ in kind, length or number of children are shown differently. In a release build the length shown is the true one modulo 2^32.", "quantifier": "all green elements obtainable through the API, all texts, any writer that may fail at any point, any Debug of str that stays on one line", "why_tests_cant": "Tests print a few trees; the decimal notation, nested padding and failing writers range over unboundedly many cases.", "anchors": ["src/green/node.rs: Debug for GreenNodeData, GreenNode", "src/green/token.rs: Debug for GreenTokenData, GreenToken", "src/green.rs: SyntaxKind", "src/utility_types.rs: NodeOrToken"]}
{"id": "C92", "title": "Debug of an untyped syntax node shows its kind and range", "statement": "Debug of a cursor::SyntaxNode, of an immutable or of an edited mutable tree, writes SyntaxNode { kind: SyntaxKind(k), text_range: a..b } with the kind of the node and its range in the whole text as they are now; with {:#?} the same fields one per line. It never panics; if the writer fails, the failure is reported and a prefix has been written. Nodes that differ in kind or range are shown differently. In a release build with an immutable tree longer than u32::MAX bytes the range shown is the true one modulo 2^32, and Debug panics exactly if that ends before it starts.", "quantifier": "all trees obtainable through the API, all programs of edits, all nodes, any writer that may fail at any point", "why_tests_cant": "Tests print a few nodes; the release build case needs more than 4 GiB of text.", "anchors": ["src/cursor.rs: Debug for SyntaxNode, NodeData::text_range"]}
