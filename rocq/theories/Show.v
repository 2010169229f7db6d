(** * [SyntaxText] and formatting as programs on handles
    (src/syntax_text.rs; src/api.rs:29-83, src/cursor.rs:1304-1313, 1332-1336)

    As Compound.v: the same methods as in Text.v and Fmt.v, here on any tree a client can
    hold, also one that has been edited.  Iterators are lazy as in the code: each item is
    asked for when it is used, each handle dropped when it is done with. *)
From Verif Require Export Moves Fmt.
From Verif Require Export Text.

(** the outcome of a computation without calls *)
(** helper: a call that reads no handle *)
Definition p_lift {A} (r : res A) : script A := match r with Ok a => PRet a | Err Panic => PPanic | Err _ => PDiverge end.
(** helper: green/token.rs:98-100 of what was looked at *)
Definition l_text (l : look) : str := match l_tree l with Token _ s => s | Node _ _ => [] end.
(** helper: cursor.rs:365-369 of what was looked at *)
Definition l_trange (l : look) : TextRange.range := TR (l_range l).1 (l_range l).2.

(** ** SyntaxText *)
(** syntax_text.rs:9-12: a node and the range it had when the text was made *)
Record ptext := PT { pt_node : nat; pt_range : TextRange.range }.
(** syntax_text.rs:15-18 [new] on a clone: cursor.rs:648-650, api.rs:124-126 *)
Definition p_text (s : nat) : script ptext := c ← p_clone s; l ← p_look c; PRet (PT c (l_trange l)).
(** drop of the field [node], syntax_text.rs:9-12 *)
Definition p_text_drop (t : ptext) : script unit := p_drop (pt_node t).
(** syntax_text.rs:59-80 [slice] on a clone of the node; the bounds as in [st_slice] *)
Definition p_slice (pr : profile) (t : ptext) (rs re : option N) : script ptext :=
  let start := default 0%N rs in
  let end_ := default (range_len (pt_range t)) re in
  _ ← p_assert (start <=? end_)%N;
  let len := (end_ - start)%N in
  start ← p_lift (add32 pr (rstart (pt_range t)) start);
  end_ ← p_lift (add32 pr start len);
  _ ← p_assert (start <=? end_)%N;
  let r := TR start end_ in
  _ ← p_assert (contains_range (pt_range t) r);
  c ← p_clone (pt_node t);
  PRet (PT c r).

(** syntax_text.rs:108-117 [next] of [tokens_with_ranges] *)
Fixpoint p_twr_next (text_range : TextRange.range) (fuel : nat) (w : walk) : script (option (nat * TextRange.range) * walk) :=
  match fuel with
  | 0 => PDiverge
  | S fuel' =>
      '(o, w) ← p_walk_next true w;
      match o with
      | None => PRet (None, w)
      | Some (Leave s) => _ ← p_drop s; p_twr_next text_range fuel' w
      | Some (Enter s) =>
          l ← p_look s;
          if is_node (l_tree l) then _ ← p_drop s; p_twr_next text_range fuel' w
          else
            match range_intersect text_range (l_trange l) with
            | None => _ ← p_drop s; p_twr_next text_range fuel' w
            | Some r => r ← p_lift (range_sub r (rstart (l_trange l))); PRet (Some (s, r), w)
            end
      end
  end.
(** [&token.text()[range]] *)
(** syntax_text.rs:87 *)
Definition p_chunk (x : nat * TextRange.range) : script str := l ← p_look x.1; p_lift (str_slice (l_text l) (rstart x.2) (rend x.2)).
(** syntax_text.rs:82-88 [try_fold_chunks]; here and below [nx] is fuel for the iterator *)
Fixpoint p_try_fold {T E} (f : T -> str -> res (T + E)) (r : TextRange.range) (nx fuel : nat) (w : walk) (acc : T) : script (T + E) :=
  match fuel with
  | 0 => PDiverge
  | S fuel' =>
      '(o, w) ← p_twr_next r nx w;
      match o with
      | None => _ ← p_walk_drop w; PRet (inl acc)
      | Some x =>
          chunk ← p_chunk x;
          v ← p_lift (f acc chunk);
          _ ← p_drop x.1;
          match v with
          | inl acc' => p_try_fold f r nx fuel' w acc'
          | inr e => _ ← p_walk_drop w; PRet (inr e)
          end
      end
  end.
(** syntax_text.rs:82-88 *)
Definition p_try_fold_chunks {T E} (fuel : nat) (t : ptext) (init : T) (f : T -> str -> res (T + E)) : script (T + E) :=
  w ← p_walk_new (pt_node t); p_try_fold f (pt_range t) fuel fuel w init.
(** syntax_text.rs:127-143 [to_string] *)
Definition p_to_string (fuel : nat) (t : ptext) : script str :=
  r ← @p_try_fold_chunks str unit fuel t [] (fun acc chunk => Ok (inl (acc ++ chunk)));
  PRet (match r with inl s => s | inr _ => [] end).
(** syntax_text.rs:28-30 [contains_char] *)
Definition p_contains_char (fuel : nat) (t : ptext) (c : char) : script bool :=
  r ← @p_try_fold_chunks unit unit fuel t Datatypes.tt (fun _ chunk => Ok (if str_contains chunk c then inr Datatypes.tt else inl Datatypes.tt));
  PRet (match r with inl _ => false | inr _ => true end).
(** syntax_text.rs:32-43 [find_char] *)
Definition p_find_char {bld : build} (fuel : nat) (t : ptext) (c : char) : script (option N) :=
  r ← p_try_fold_chunks fuel t 0%N (fun acc chunk =>
        match str_find chunk c with
        | Some p => x ← add32 bld acc p; Ok (inr x)
        | None => n ← text_size_of chunk; acc' ← add32 bld acc n; Ok (inl acc')
        end);
  PRet (match r with inl _ => None | inr x => Some x end).
(** syntax_text.rs:45-57 [char_at] *)
Definition p_char_at {bld : build} (fuel : nat) (t : ptext) (offset : N) : script (option char) :=
  r ← p_try_fold_chunks fuel t 0%N (fun start chunk =>
        n ← text_size_of chunk; e ← add32 bld start n;
        if (start <=? offset)%N && (offset <? e)%N then
          s ← str_from chunk (offset - start); c ← unwrap (head s); Ok (inr c)
        else Ok (inl e));
  PRet (match r with inl _ => None | inr c => Some c end).
(** syntax_text.rs:145-157 [PartialEq<str>] *)
Definition p_eq_str (fuel : nat) (t : ptext) (rhs : str) : script bool :=
  r ← @p_try_fold_chunks str unit fuel t rhs (fun rhs chunk =>
        if negb (starts_with rhs chunk) then Ok (inr Datatypes.tt)
        else rest ← str_from rhs (blen chunk); Ok (inl rest));
  PRet (match r with inl rest => match rest with [] => true | _ => false end | inr _ => false end).

(** *** [PartialEq] of two texts *)
(** the items of syntax_text.rs:108-117 *)
Definition pitem : Type := nat * TextRange.range.
(** the loops of syntax_text.rs:194-199; the item in hand is dropped when it is replaced *)
Fixpoint p_skip_empty (r : TextRange.range) (nx fuel : nat) (x : pitem) (xs : walk) : script (option pitem * walk) :=
  match fuel with
  | 0 => PDiverge
  | S fuel' =>
      if range_is_empty x.2 then
        '(o, xs) ← p_twr_next r nx xs;
        _ ← p_drop x.1;
        match o with None => PRet (None, xs) | Some x => p_skip_empty r nx fuel' x xs end
      else PRet (Some x, xs)
  end.
(** syntax_text.rs:193-208; [true]: it returned [Some(())] *)
Fixpoint p_zip_loop {bld : build} (rx ry : TextRange.range) (nx fuel : nat) (x : pitem) (xs : walk) (y : pitem) (ys : walk) : script (bool * walk * walk) :=
  match fuel with
  | 0 => PDiverge
  | S fuel' =>
      '(ox, xs) ← p_skip_empty rx nx nx x xs;
      match ox with
      | None => _ ← p_drop y.1; PRet (false, xs, ys)
      | Some x =>
          '(oy, ys) ← p_skip_empty ry nx nx y ys;
          match oy with
          | None => _ ← p_drop x.1; PRet (false, xs, ys)
          | Some y =>
              x_text ← p_chunk x;
              y_text ← p_chunk y;
              if negb (starts_with x_text y_text || starts_with y_text x_text) then
                _ ← p_drop x.1; _ ← p_drop y.1; PRet (true, xs, ys)
              else
                let advance := N.min (range_len x.2) (range_len y.2) in
                xs_start ← p_lift (add32 bld (rstart x.2) advance);
                ys_start ← p_lift (add32 bld (rstart y.2) advance);
                p_zip_loop rx ry nx fuel' (x.1, TR xs_start (rend x.2)) xs (y.1, TR ys_start (rend y.2)) ys
          end
      end
  end.
(** syntax_text.rs:190-192 *)
Definition p_zip_texts {bld : build} (rx ry : TextRange.range) (fuel : nat) (xs ys : walk) : script (bool * walk * walk) :=
  '(ox, xs) ← p_twr_next rx fuel xs;
  match ox with
  | None => PRet (false, xs, ys)
  | Some x =>
      '(oy, ys) ← p_twr_next ry fuel ys;
      match oy with
      | None => _ ← p_drop x.1; PRet (false, xs, ys)
      | Some y => p_zip_loop rx ry fuel fuel x xs y ys
      end
  end.
(** [Iterator::all(|it| it.1.is_empty())] *)
(** syntax_text.rs:185-186: [all] on the rest of an iterator *)
Fixpoint p_all_empty (r : TextRange.range) (nx fuel : nat) (w : walk) : script (bool * walk) :=
  match fuel with
  | 0 => PDiverge
  | S fuel' =>
      '(o, w) ← p_twr_next r nx w;
      match o with
      | None => PRet (true, w)
      | Some x => _ ← p_drop x.1; if range_is_empty x.2 then p_all_empty r nx fuel' w else PRet (false, w)
      end
  end.
(** syntax_text.rs:177-188 *)
Definition p_text_eq {bld : build} (fuel : nat) (t1 t2 : ptext) : script bool :=
  if negb (range_len (pt_range t1) =? range_len (pt_range t2))%N then PRet false else
  lhs ← p_walk_new (pt_node t1);
  rhs ← p_walk_new (pt_node t2);
  '(mismatch, lhs, rhs) ← p_zip_texts (pt_range t1) (pt_range t2) fuel lhs rhs;
  '(b1, lhs) ← (if mismatch : bool then PRet (false, lhs) else p_all_empty (pt_range t1) fuel fuel lhs);
  '(b2, rhs) ← (if b1 : bool then p_all_empty (pt_range t2) fuel fuel rhs else PRet (false, rhs));
  _ ← p_walk_drop rhs; _ ← p_walk_drop lhs;
  PRet b2.

(** ** Formatting *)
Section fmt.
  Variables (pr : profile) (sink : str -> str -> option nat).
  Variables (kfr : kind -> kind) (kdbg : kind -> str) (sdbg : str -> str).

  (** api.rs:50, 65 *)
  Definition l_head (l : look) (out : str) : fres :=
    wpieces sink [kdbg (kfr (l_kind l)); s_at; dec (l_range l).1; s_dots; dec (l_range l).2] out.
  (** api.rs:63-78 *)
  Definition l_token (l : look) : str -> fres :=
    wseq (l_head l)
      (fun out =>
         if (blen (l_text l) <? 25)%N then wpieces sink [s_space; sdbg (l_text l)] out
         else text ← cut_at (l_text l) [21; 22; 23; 24]%N;
              wpieces sink [s_space; sdbg text] out).
  (** api.rs:39-42 *)
  Definition l_element (l : look) : str -> fres :=
    wseq (if is_node (l_tree l) then l_head l else l_token l) (wstr sink s_newline).
  (** api.rs:31-48 *)
  Fixpoint p_fmt_loop (fuel : nat) (w : walk) (level : Z) (out : str) : script (bool * str) :=
    match fuel with
    | 0 => PDiverge
    | S fuel' =>
        '(o, w) ← p_walk_next true w;
        match o with
        | None => _ ← p_walk_drop w; _ ← p_assert (level =? 0)%Z; PRet (true, out)
        | Some (Enter s) =>
            l ← p_look s;
            '(ok, out) ← p_lift (wseq (wpieces sink (replicate (Z.to_nat level) s_indent)) (l_element l) out);
            _ ← p_drop s;
            if ok : bool then level ← p_lift (add_i32 pr level 1); p_fmt_loop fuel' w level out
            else _ ← p_walk_drop w; PRet (false, out)
        | Some (Leave s) => _ ← p_drop s; level ← p_lift (add_i32 pr level (-1)); p_fmt_loop fuel' w level out
        end
    end.
  (** api.rs:29-54 [Debug for SyntaxNode], 63-78 [Debug for SyntaxToken] *)
  Definition p_debug (alternate : bool) (fuel : nat) (s : nat) (out : str) : script (bool * str) :=
    l ← p_look s;
    if negb (is_node (l_tree l)) then p_lift (l_token l out)
    else if alternate then w ← p_walk_new s; p_fmt_loop fuel w 0 out
    else p_lift (l_head l out).

  (** cursor.rs:1304-1313 *)
  Fixpoint p_display_loop (fuel : nat) (o : fopts) (w : walk) (out : str) : script (bool * str) :=
    match fuel with
    | 0 => PDiverge
    | S fuel' =>
        '(e, w) ← p_walk_next true w;
        match e with
        | None => _ ← p_walk_drop w; PRet (true, out)
        | Some (Leave s) => _ ← p_drop s; p_display_loop fuel' o w out
        | Some (Enter s) =>
            l ← p_look s;
            if is_node (l_tree l) then _ ← p_drop s; p_display_loop fuel' o w out
            else
              '(ok, out) ← p_lift (wstr sink (pad o (l_text l)) out);
              _ ← p_drop s;
              if ok : bool then p_display_loop fuel' o w out else _ ← p_walk_drop w; PRet (false, out)
        end
    end.
  (** cursor.rs:1304-1313, 1332-1336, api.rs:56-60, 79-83 [Display] *)
  Definition p_display (fuel : nat) (o : fopts) (s : nat) (out : str) : script (bool * str) :=
    l ← p_look s;
    if is_node (l_tree l) then w ← p_walk_new s; p_display_loop fuel o w out
    else p_lift (wstr sink (pad o (l_text l)) out).
End fmt.

(** for examples: a list of calls *)
(** helper: a straight-line program *)
Fixpoint p_ops (ops : list op) : script unit := match ops with [] => PRet Datatypes.tt | o :: ops' => POp o (fun _ => p_ops ops') end.
