# Formal model of rowan 0.16.1 in Rocq (Coq 8.16.1)

This document was written before the proofs; it is updated as the model grows.
`properties.jsonl` lists the properties (C01..), `MANIFEST.json` maps them to theorems.

## Layers

1. **Specification** (`Spec.v`) — trees without offsets, lengths, addresses or
   caches: `tree`, its text, positions as lists of child indices, the walk, the
   token list. Nothing in it is shared with the model; a reader can audit it alone.
2. **Green layer** (`Green.v`) — green nodes/tokens with exactly the stored data
   of the code: kind, stored `text_len`, stored `rel_offset` of each child, and the
   *address* of the allocation (needed for cache hits and for `==` on syntax
   nodes). `GreenNode::new`, the edits, `child_at_range` with the std binary
   search, equality, Display.
3. **Cache and builder** (`Cache.v`, `Builder.v`) — hashbrown table as a bag of
   (stored hash, key); hash functions and probing are universally quantified.
4. **Immutable cursors** (`Cursor.v`, ...) — a `NodeData` of an immutable tree is
   modelled as an inductive value (parent cursor, index, cached offset, green).
   All navigation, iterators, traversals, searches, text, pointers; `Debug`, `Display`
   (`Fmt.v`, of green elements `GreenFmt.v`, of untyped nodes `RawFmt.v`) and serialisation (`Serde.v`). `Api.v` is the typed layer over it; `Chunks.v` has the
   chunk visitors of texts with stateful closures, and `Display` of texts and green trees.
   `Index32.v` has the navigation functions with 32-bit child indices.
5. **Node heap** (`Heap.v`, ...) — `NodeData` objects in a heap with reference
   counts, parent pointers, intrusive sorted circular lists (`sll.rs`), green
   ownership counts; allocation, `free`, `detach`, `attach_child`, `respine`,
   `splice_children`, in-place iteration. Dereferencing a dead object is an
   explicit `UB` error value; a panic is an explicit `Panic` value; loops run on
   fuel and give an explicit `Diverge` value. Navigation on the heap is proved to refine
   layer 4, so the properties of layer 4 carry over.
6. **Client programs** (`Client.v`, `HeapProg.v`, `HeapClient.v`) — a client is a list of
   API calls on numbered variables, run on the heap; its specification (`Forest.v`,
   `Client.v`) is a forest of independent spec trees with handles (tree, position).
   The simulation holds for every program and every allocator.
   Programs that react to results are scripts (`Script.v`); the methods of cursor.rs that
   are written in terms of other methods are scripts as well (`Compound.v`) and are
   proved to follow layer 4 on every reachable heap (`Tracks.v`, `CompoundFacts.v`), and so
   are `SyntaxText` and the formatters (`Show.v`, `ShowFacts.v`), serialisation (`SerdeHeap.v`), ast.rs (`AstHeap.v`) and
   `replace_with` (`Replace.v`).
   `Catch.v` has clients that catch panics. The heap is modelled in both build profiles
   (`build`, implicit, by default debug); `Release.v` compares them,
   `Refused.v` the calls that panic, `Wrapped.v` release builds after a text
   length has wrapped.
7. **Arc** (`Arc.v`) — reference count as a small-step concurrent system with
   release/acquire views; layout arithmetic of `ThinArc` (`Layout.v`).
   `GreenStore.v` is the memory of green trees: allocations with counts, single-threaded,
   with clients of the green API; `GreenOwn.v` relates it to the list of owned green
   elements in the node heap. `StoreBuild.v` has builders and caches on that memory.
   `Threads.v` has any number of threads on that memory, one step per atomic operation;
   `Races.v` adds happens-before for all allocations.
8. **Examples** (`Sexp.v`, `Math.v`) — the two example parsers on top of layer 3.

`Properties*.v` contain only theorem statements closed by `exact`, non-vacuity
examples and `Print Assumptions`.

## How each property is modelled and proved

| id | model | proof |
|----|-------|-------|
| C01 | `green_new`, edits, builder; closure `built` | induction over `built`: stored length = byte length of spec text |
| C02 | `green_new` in both arithmetic profiles | exact characterisation of the panic; witness for the wrap |
| C03 | `child ranges of a cursor` | from the stored offsets invariant |
| C04 | `replace_child` ... on child lists | list equations, panic iff out of range |
| C05 | `green_eqb`, `green_hash_data` | induction on trees |
| C06-C10 | builder as a state machine over calls | invariant by induction over call lists; simulation with spec trees; C10 is refuted |
| C11,C12 | `cache_node`, `cache_token` for all hash functions, probes and growth decisions | invariant: entries are wf, stored hash = recomputed hash, address-coherent |
| C13-C16 | cursor functions | each function equals `cursor_at root (path computed by the spec)` |
| C17,C18 | `Preorder` as an iterator state machine | simulation with the spec walk |
| C19,C20 | `first_token`, `next_token` | exact behaviour; refuted in presence of empty nodes, proved without |
| C21-C23 | `token_at_offset`, `covering_element`, `child_at_range` | induction on trees; binary search proved against the std contract |
| C24 | `TokenAtOffset` | case analysis |
| C25 | `replace_with` | induction on the path |
| C26 | `key` equality | proved for non-empty elements, refuted in general |
| C27,C28 | `SyntaxNodePtr` | non-empty nodes proved (up to equal kind and range), refuted for empty ones |
| C29 | `ast::support` | list equations, for every cast function |
| C30-C32 | `SyntaxText` over strings as lists of Unicode scalar values with UTF-8 widths | induction over the token list |
| C33-C44 | node heap | global invariant over all API histories, refinement to a forest of spec trees; C36, C37, C41, C44 contain refuted parts |
| C45,C46,C53 | the writes of a formatter to a sink that may fail at any write | the events of the walk equal an independent recursive dump; induction on trees |
| C47 | the calls to a serializer, each of which may fail | calls equal the spec's, and can be read back into the tree |
| C48 | Arc as interleaved atomic steps; loads may be stale, happens-before is tracked as sets of events | invariant over all executions of any number (< 2^63) of threads |
| C49 | layout arithmetic modulo 2^64 | arithmetic |
| C50 | slice iterator as a window | invariant |
| C51,C54 | tutorial parser and evaluator, lexer output as a parameter | the calls made are those of the tree of a stack machine; cursor navigation per node |
| C52 | arithmetic parser with checkpoints | each parsing function meets a grammar rule, by simulation with the builder's specification |
| C55,C56 | iterators and searches as scripts of heap calls | each script tracks the layer-4 function, handle by handle, over the simulation |
| C57 | scripts | induction over the script with the one-step simulation |
| C58,C59 | lists of calls | induction over the list of detached handles; positions close up |
| C60-C62 | formatters and `SyntaxText` as scripts; a text keeps the range it was made with | as C55; a text read after edits is the slice of the present text clamped to the node; C62 is refuted for such texts |
| C63-C65 | ast.rs as scripts of heap calls | as C55, with the layer-4 results of C27-C29; copies by running the script on the specification |
| C66 | `replace_with` as a script of heap calls | by induction on the position, on the specification; the script theorem carries it to the heap |
| C67 | green elements in client variables | every call leaves the other green variables alone; what a new one holds is read off the step |
| C68 | clients that catch panics | a refused call fails before it writes; `splice_children` is cut at the refused element; then as C40 |
| C69-C72 | green trees as allocations with counts | invariant: the allocations are exactly those of the trees of the handles and of leaked nodes, counts are occurrences; induction on trees for drop |
| C73 | both models of green ownership | the invariant of C69 with the owned list as handles is kept by each operation |
| C74 | the node heap in both build profiles | relation: equal outcomes, or the debug one panics; one lemma per function |
| C81 | release builds after a length has wrapped | relation: the same run with every text moved into the kind of its token; there nothing gets long, so C74 and C40 apply |
| C82 | navigation with `index as u32` written out, compared with Cursor.v | invariant: element and ancestors have narrow green trees; cyclic sequence by induction on the number of calls |
| C83 | fields of the live objects in the node heap | read off the invariant of the simulation |
| C84 | threads on the memory of C69 with drops taken apart into steps, against threads holding trees | the invariant of C69 with the handles and pending drops of all threads; cells with count 0 are exactly those some thread is about to free; the sum of counts and allocations decreases with each step of a drop |
| C85 | the threads of C84 beside a monitor of happens-before that stops at a race; spec: initialisation before access before destruction | every access to a live allocation is covered: by the releases of its count, by a variable or pending drop that points to it and follows the access, or by an access to its parent; with count 1 and a drop pending, nothing but the releases and the dropping thread is left |
| C86 | serialisation as a script on handles, children as the iterator gives them; spec: the list of calls of the tree, readable back | the script follows `Serde.v` on every reachable heap (as C60), and that makes the calls of the spec |
| C87 | green construction, builders and offsets with wrapping additions; spec: true values modulo 2^32 | stored data is a function of the list of children, as in C01, with all sums modulo 2^32; cached and pending elements are built ones |
| C88 | client programs on the node heap with wrapping additions, after any edits; spec: position in the whole text modulo 2^32 | the walk to the root adds, level by level, the offsets of C87, because every green element on the heap is a built one (an invariant of each heap function) and C81 gives the places |
| C89 | client programs with the panics of `rel_range` in the binary search (WrapRange.v: `xclient`); spec: each search answers with some child or none | for the child found, the call is the accessor of that child, so C81's relation to the program without texts goes through; where nothing wrapped `xclient` equals `client` |
| C90 | client programs with searches (`xclient`) in release builds; spec: position in the whole text modulo 2^32 for looks, and the child that contains the range for searches in nodes of at most `u32::MAX` bytes | C88's invariant holds for programs with searches; a built green node of at most `u32::MAX` bytes has nothing wrapped inside, so the search in it is the one of C23, on a range counted from the offset of C88 |
| C91 | `Debug` of green elements (GreenFmt.v) through std's `debug_struct`, `debug_tuple` and `PadAdapter`, written out as pieces of text; spec: the lines as text, with depths | padding of pieces equals padding of characters; a length is the stored one, which C01/C87 give |
| C92 | `Debug` of `cursor::SyntaxNode` (RawFmt.v), with the `text_range` of either build; spec: the lines as text | as C91; the range of a cursor is that of its position, in a release build by C87 |
| C79, C80 | builders and caches that hold counted pointers; the cache compares addresses | the invariant of C69 with the entries of caches and builders as handles; a cached node keeps its children alive, so equal addresses mean equal trees |
| C77, C78 | closures with state; writers that may fail | each token item is the specified part of the token at its position; the fold is cut at the first bad slice |
| C75, C76 | the typed layer | each wrapper reduces to the untyped function; the answer is a node or token because the specification tree has one there |

## Trusted base

* Coq 8.16.1 kernel; std++ as a library. `Print Assumptions` is under every property
  theorem, and every one is "Closed under the global context": no axiom is used.
  (`vcheck` lists the ssreflect library's `Under_rel` module type as loaded; nothing
  depends on it.)
* The reading of the Rust source: each definition cites the lines it models.
* External crates, modelled from their documented behaviour, not from source in
  /repo: `text-size` 1.1.1, `hashbrown` raw entry API, `rustc-hash` (any hash
  function), Rust `std` (Vec::splice, slice::binary_search_by, str, Layout), `serde`.
* Quantified parameters standing for the environment: `cenv` (hash functions, probe
  choices and growth of the cache tables), `henv` (the allocators of `NodeData` and of
  green elements), with `henv_ok`: an allocator never returns an address in use.
  Addresses may be reused after being freed. The concrete `bump_env` meets `henv_ok`.
  For C69-C73, C79, C80, C84 and C85: `al` with `galloc_ok` (likewise), and `menv` with `menv_ok`
  (hash functions, probes, growth and drop order of the cache tables).
* C48: the Rust memory model restricted to one atomic location that is only changed by
  read-modify-writes (see the head of `Arc.v`), and the borrow checker's guarantees
  about the use of a handle. `usize` is 64 bits wide.
* `Language` implementations: `kind_from_raw` is a function parameter (`kfr`).
* C51, C54: the lexer (crate `m_lexer`) and `str::parse::<i64>` are parameters; the native
  stack is unbounded.
* Formatting: `Debug` of the kind and of `str` are function parameters (`kdbg`, `sdbg`);
  `Formatter::pad` is modelled from its documentation; `debug_struct`, `debug_tuple` and
  their indentation (`PadAdapter`) after the source of std (`GreenFmt.v`), with no format
  option other than `#`.

## Simplifications (global)

* `usize`/`u32` child indices are unbounded naturals. For immutable trees C82 shows that
  this makes no difference up to 2^32 children per node, and what the code does beyond; for
  mutable trees (node heap) nodes with more than 2^32 children are not modelled. Text lengths and offsets are bounded as `u32` where stated.
* A Rust `str` is the list of its Unicode scalar values, with UTF-8 byte widths.
* `SyntaxKind(u16)` is a natural number; nothing depends on its range.
* `countme::Count` fields (instrumentation) are omitted.
* Theorems about the node heap without a profile are about debug builds; C74 carries
  them over to release builds: what does not panic and what panics for another reason than
  the length of a text. After a text length has wrapped, C81 says what a release build does;
  the values of lengths and ranges it then shows are in C87 for green trees and for positions of a tree, and in C88 for handles on mutable trees in the node heap (not for handles on immutable ones, whose stored offsets are only in C87); searches by range in such trees are in C89, up to the choice of the child (any child or none), and exactly in C90 for nodes of mutable trees that have themselves at most `u32::MAX` bytes.
* A panic ends the program, except in `Catch.v`, where the client catches it and the
  arguments it has moved are dropped; there the panic message is not formatted.
* `GreenStore.v`: counts are unbounded (no abort at `isize::MAX`), allocation does not fail;
  an allocation is a cell rather than bytes (`Layout.v` has the layout).
* `Threads.v` (C84) interleaves whole steps in one order (sequential consistency): a `fetch_add`,
  a `fetch_sub` together with what follows it when it found 1 up to the drop of the first child,
  a free, or a read through a handle (taking it apart makes no difference: `c85_stable`). That the memory orderings of arc.rs justify this is C48 for one allocation,
  and C85 (no data races) for whole programs: a program without data races whose other
  operations are read-modify-writes of counts, of which each takes the latest value, behaves as
  under some interleaving. A step may use a variable of
  another thread (`&` references). Edits are sequences of these steps.
* `Races.v` (C85): a read through a handle, a construction and a drop up to its first child are one event each; a
  release sequence is not broken, as counts are changed by read-modify-writes only; the type checker is
  modelled by refusing steps: a handle of another thread is borrowed only if its making is known, and
  moved or dropped only if all uses of it are known. Synchronisation outside rowan is arbitrary.
* `StoreBuild.v`: two builders that borrow one cache may take turns (the borrow checker
  forbids it: more programs are covered); a match closure of hashbrown is run on every entry.
* `splice_children` is called with its elements evaluated beforehand; a lazily
  evaluated argument is a sequence of single splices (`c36_sequence`).
* `Formatter::pad` writes padding and text in one write; a serializer receives the
  children of a node after they have been listed (`Serde.v`, C47) or one by one (`SerdeHeap.v`, C86). A
  serializer or sink that edits the tree while it is being written is not modelled.

## What is not modelled

* `Send`/`Sync` claims and auto traits; `countme`; `Hash` for cursor handles beyond the
  key they hash; `utility_types.rs` trait plumbing (`From`, `Display` forwarding);
  the derived `Debug` of the builder, of the iterators and of `cursor::SyntaxToken` (the last two
  show addresses).

## Findings (proved as `_refuted` or exact theorems)

| what | where | theorem |
|------|-------|---------|
| `finish` drops an unclosed node around a single child | builder.rs | `c10_*` |
| `by_kind` on an advanced iterator restarts at the last element yielded | cursor.rs | `c16_*` |
| `skip_subtree` before the first event or after Leave skips the wrong part | cursor.rs | `c18_*` |
| `first_token`/`next_token` give up at an empty node | cursor.rs | `c19_*`, `c20_*` |
| adjacent shared empty siblings compare equal | cursor.rs | `c26_*` |
| pointers do not round-trip for empty nodes | ast.rs | `c27_*` |
| `splice_children` removes only the first child of a longer range; a loop over `children()` that detaches stops after one | cursor.rs | `c36_refuted`, `c37_refuted` |
| a caught panic in `splice_children` leaves dangling nodes | cursor.rs | `c40_after_panic_refuted`, `c40_catching_refuted` |
| `to_next_sibling` on an immutable sole root leaks it | cursor.rs | `c41_refuted` |
| `GreenNode::new` that panics on overflow leaks the node and the children written so far | arc.rs | `c71_leak_refuted`, `c79_builder_leaks` |
| drop of a green tree recurses as deep as the tree is high | arc.rs | `c72_no_bound` |
| release builds store the length of a text over `u32::MAX` modulo 2^32 | green/node.rs | `c02_release_wraps`, `c74_same_refuted` |
| `children_with_tokens` of a node with more than 2^32 children never ends | cursor.rs | `c82_wide_never_ends`, `c82_wide_replace` |
| attaching a tree below itself never returns | cursor.rs | `c44_*` |
| `{:#?}` of a tree of depth 2^31 - 1 or more overflows its indentation counter | api.rs | `c45_too_deep` |
| `Display` with a width or precision pads or cuts each token on its own | cursor.rs | `c53_*` |
| `Display` of a text slice with a width also pads the empty part of a token that only touches the slice | syntax_text.rs:108-137 | `c53_text_display_refuted` |
| the arithmetic example silently drops the tokens after a complete expression | examples/math.rs | `c52_all_tokens_refuted` |
