(** * Green trees and offsets in release builds: src/green/node.rs, src/cursor.rs

    In a build without overflow checks the additions of lengths wrap.  The
    definitions of Green.v take the profile as an argument; here are the
    elements that can be made with [Wrapping], and the two ways in which
    cursor.rs computes an offset. *)
From Verif Require Export Cursor BuilderFacts.
From Verif Require Heap.

(** every green element obtainable in a release build *)
(** specification: made by [GreenToken::new] (green/token.rs:112-116), [GreenNode::new] (green/node.rs:203-232)
    and the methods on them (green/node.rs:138-184), compiled without overflow checks; tokens may have any length *)
Inductive built_rel : green -> Prop :=
| br_token a k s : built_rel (green_token_new a k s)
| br_node a k els g : Forall built_rel els -> green_new Wrapping a k els = Ok g -> built_rel g
| br_splice a g lo hi repl g' :
    built_rel g -> Forall built_rel repl -> green_splice_children Wrapping a g lo hi repl = Ok g' -> built_rel g'
| br_replace a g i new g' :
    built_rel g -> built_rel new -> green_replace_child Wrapping a g i new = Ok g' -> built_rel g'
| br_child g c : built_rel g -> c ∈ gchildren g -> built_rel c.2.

(** ** Syntax nodes in a release build *)

(** cursor.rs:565-574, 977-986, 1114-1124: [new_child] with the offset
    [parent.offset() + child.rel_offset()], which wraps *)
Definition r_child (parent : cursor) (i : nat) : res (option cursor) :=
  match gchildren (c_green parent) !! i with
  | Some c => offset ← add32 Wrapping (c_offset parent) c.1; Ok (Some (CChild parent i offset c.2))
  | None => Ok None
  end.
(** the element reached from the root by child indices; every navigation
    function ends in the same addition (see Cursor.v) *)
(** cursor.rs:559-574: repeated [new_child] *)
Fixpoint r_descend (c : cursor) (p : pos) : res (option cursor) :=
  match p with
  | [] => Ok (Some c)
  | i :: p' => d ← r_child c i; match d with Some d => r_descend d p' | None => Ok None end
  end.
(** cursor.rs:351-362 [offset_mut]: the offsets stored in the parents' green
    nodes are added up on the way to the root; here the handle is a value
    (the walk in the node heap is [Heap.h_offset_mut_loop]) *)
Fixpoint r_offset_mut (c : cursor) (acc : N) : res N :=
  match c with
  | CRoot _ => Ok acc
  | CChild parent i _ _ =>
      match gchildren (c_green parent) !! i with
      | Some c => acc' ← add32 Wrapping acc c.1; r_offset_mut parent acc'
      | None => Err Panic
      end
  end.
(** cursor.rs:364-369 [text_range]: [TextRange::at] asserts that the end, which wraps, is not before the start *)
Definition r_text_range (c : cursor) : res range :=
  len ← green_text_len (c_green c);
  e ← Heap.range_end Wrapping (c_offset c) len;
  Ok (TR (c_offset c) e).

(** ** Specification *)
(** specification: what is left of a number in 32 bits *)
Definition m32 (n : N) : N := (n mod 4294967296)%N.
(** specification: [TextSize::of] does not panic for the token children *)
Definition toks_fit (ts : list tree) : Prop :=
  Forall (fun t => is_token t = true -> (blen (ttext t) <= 4294967295)%N) ts.
(** specification: the builder with the limit of a release build: only tokens must fit, when their node is closed *)
Definition sbr_op (s : sbuilder) (o : bop) : option sbuilder :=
  match o with
  | BFinishNode => if decide (toks_fit (current s)) then sb_op s o else None
  | _ => sb_op s o
  end.
(** specification: the builder with the limit of a release build *)
Fixpoint sbr_run (s : sbuilder) (ops : list bop) : option sbuilder :=
  match ops with
  | [] => Some s
  | o :: ops' => match sbr_op s o with Some s' => sbr_run s' ops' | None => None end
  end.
(** specification: what a sequence of calls and [finish] give in a release build *)
Definition spec_build_rel (ops : list bop) : res tree :=
  match sbr_run sb_new ops with
  | Some s => match sb_pending s with
              | [Node k cs] => Ok (Node k cs)
              | _ => Err Panic
              end
  | None => Err Panic
  end.
