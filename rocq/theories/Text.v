(** * SyntaxText: src/syntax_text.rs

    The token iterator of a text is lazy in the code; on an immutable tree
    producing its items has no effect and cannot fail (proved), so the model
    makes it a list.  The slicing [&token.text()[range]] can panic and stays lazy:
    it happens when a chunk is handed to the closure. *)
From Verif Require Export CursorMore.

(** syntax_text.rs:9-12 [SyntaxText] *)
Record stext := ST { st_node : cursor; st_range : range }.

(** 15-18 [new] *)
Definition st_new (c : cursor) : res stext := r ← c_text_range c; Ok (ST c r).
(** 20-22 [len] *)
Definition st_len (t : stext) : N := range_len (st_range t).
(** 24-26 [is_empty] *)
Definition st_is_empty (t : stext) : bool := range_is_empty (st_range t).

(** the closure of 111-115 for one token *)
Definition token_with_range (text_range : range) (token : cursor) : res (option (cursor * range)) :=
  token_range ← c_text_range token;
  match range_intersect text_range token_range with
  | None => Ok None
  | Some r => r' ← range_sub r (rstart token_range); Ok (Some (token, r'))
  end.
(** std [filter_map]; used at syntax_text.rs:110-116 *)
Fixpoint filter_map_res {A B} (f : A -> res (option B)) (l : list A) : res (list B) :=
  match l with
  | [] => Ok []
  | x :: l' => o ← f x; r ← filter_map_res f l'; Ok (match o with Some b => b :: r | None => r end)
  end.
(** 108-117 [tokens_with_ranges] *)
Definition tokens_with_ranges (t : stext) : res (list (cursor * range)) :=
  l ← descendants_with_tokens (st_node t);
  filter_map_res (token_with_range (st_range t)) (List.filter (fun el => negb (c_is_node el)) l).

(** token.text(): cursor.rs:1032-1043 *)
Definition token_text (c : cursor) : str := match c_green c with GTok _ _ s => s | GNode _ _ _ _ => [] end.
(** [&token.text()[range]] *)
(** syntax_text.rs:87 *)
Definition chunk_text (x : cursor * range) : res str := str_slice (token_text x.1) (rstart x.2) (rend x.2).

(** 82-88 [try_fold_chunks]: [Iterator::try_fold] with a closure returning
    [Ok(acc)] ([inl]) or [Err(e)] ([inr]), which may also panic *)
Fixpoint try_fold {T E} (f : T -> str -> res (T + E)) (acc : T) (l : list (cursor * range)) : res (T + E) :=
  match l with
  | [] => Ok (inl acc)
  | x :: l' =>
      chunk ← chunk_text x;
      r ← f acc chunk;
      match r with inl acc' => try_fold f acc' l' | inr e => Ok (inr e) end
  end.
(** syntax_text.rs:82-88 *)
Definition try_fold_chunks {T E} (t : stext) (init : T) (f : T -> str -> res (T + E)) : res (T + E) :=
  l ← tokens_with_ranges t; try_fold f init l.
(** 90-95 [try_for_each_chunk]; the captured variables of the closure are the accumulator *)
(** 97-106 [for_each_chunk]: the chunks in order *)
Definition st_chunks (t : stext) : res (list str) :=
  r ← @try_fold_chunks (list str) unit t [] (fun acc chunk => Ok (inl (acc ++ [chunk])));
  match r with inl l => Ok l | inr _ => Ok [] end.
(** 133-137 [Display], and through it [to_string], [Debug] (127-131) and [From<SyntaxText> for String] (139-143) *)
Definition st_to_string (t : stext) : res str :=
  r ← @try_fold_chunks str unit t [] (fun acc chunk => Ok (inl (acc ++ chunk)));
  match r with inl s => Ok s | inr _ => Ok [] end.

(** [TextSize::of(&str)] (text-size): panics if the length does not fit *)
(** text-size; used at syntax_text.rs:39, 48 *)
Definition text_size_of (s : str) : res N := if (blen s <=? u32_max)%N then Ok (blen s) else Err Panic.

(** 28-30 [contains_char] *)
Definition st_contains_char (t : stext) (c : char) : res bool :=
  r ← @try_fold_chunks unit unit t Datatypes.tt (fun _ chunk => Ok (if str_contains chunk c then inr Datatypes.tt else inl Datatypes.tt));
  Ok (match r with inl _ => false | inr _ => true end).
(** 32-43 [find_char] *)
Definition st_find_char (t : stext) (c : char) : res (option N) :=
  r ← try_fold_chunks t 0%N (fun acc chunk =>
        match str_find chunk c with
        | Some p => x ← add32 Checked acc p; Ok (inr x)
        | None => n ← text_size_of chunk; acc' ← add32 Checked acc n; Ok (inl acc')
        end);
  Ok (match r with inl _ => None | inr x => Some x end).
(** 45-57 [char_at] *)
Definition st_char_at (t : stext) (offset : N) : res (option char) :=
  r ← try_fold_chunks t 0%N (fun start chunk =>
        n ← text_size_of chunk; e ← add32 Checked start n;
        if (start <=? offset)%N && (offset <? e)%N then
          s ← str_from chunk (offset - start); c ← unwrap (head s); Ok (inr c)
        else Ok (inl e));
  Ok (match r with inl _ => None | inr c => Some c end).

(** 59-80 [slice]; a [SyntaxTextRange] (213-267) is an optional start and an optional end *)
Definition st_slice (pr : profile) (t : stext) (rs re : option N) : res stext :=
  let start := default 0%N rs in
  let end_ := default (st_len t) re in
  _ ← rassert (start <=? end_)%N;
  let len := (end_ - start)%N in
  start ← add32 pr (rstart (st_range t)) start;
  end_ ← add32 pr start len;
  _ ← rassert (start <=? end_)%N;
  let r := TR start end_ in
  _ ← rassert (contains_range (st_range t) r);
  Ok (ST (st_node t) r).

(** 145-157 [PartialEq<str>] (and through it 159-175 the other orders) *)
Definition st_eq_str (t : stext) (rhs : str) : res bool :=
  r ← @try_fold_chunks str unit t rhs (fun rhs chunk =>
        if negb (starts_with rhs chunk) then Ok (inr Datatypes.tt)
        else rest ← str_from rhs (blen chunk); Ok (inl rest));
  Ok (match r with inl rest => match rest with [] => true | _ => false end | inr _ => false end).

(** the [while x.1.is_empty() { x = xs.next()?; }] loops of 194-199 *)
Fixpoint skip_empty (x : cursor * range) (xs : list (cursor * range)) : option ((cursor * range) * list (cursor * range)) :=
  if range_is_empty x.2 then match xs with [] => None | x' :: xs' => skip_empty x' xs' end else Some (x, xs).
(** 193-208 the loop of [zip_texts]; the result is (did it return [Some(())]?,
    what is left of [xs], what is left of [ys]) *)
Fixpoint zip_loop (fuel : nat) (x : cursor * range) (xs : list (cursor * range)) (y : cursor * range) (ys : list (cursor * range))
    : res (bool * list (cursor * range) * list (cursor * range)) :=
  match fuel with
  | 0 => Err Diverge
  | S fuel' =>
      match skip_empty x xs with
      | None => Ok (false, [], ys)
      | Some (x, xs) =>
          match skip_empty y ys with
          | None => Ok (false, xs, [])
          | Some (y, ys) =>
              x_text ← chunk_text x;
              y_text ← chunk_text y;
              if negb (starts_with x_text y_text || starts_with y_text x_text) then Ok (true, xs, ys)
              else
                let advance := N.min (range_len x.2) (range_len y.2) in
                xs_start ← add32 Checked (rstart x.2) advance;
                ys_start ← add32 Checked (rstart y.2) advance;
                zip_loop fuel' (x.1, TR xs_start (rend x.2)) xs (y.1, TR ys_start (rend y.2)) ys
          end
      end
  end.
(** 190-209 [zip_texts]; every round of the loop uses up one item, which bounds the rounds *)
Definition zip_texts (xs ys : list (cursor * range)) : res (bool * list (cursor * range) * list (cursor * range)) :=
  match xs with
  | [] => Ok (false, [], ys)
  | x :: xs =>
      match ys with
      | [] => Ok (false, xs, [])
      | y :: ys => zip_loop (S (S (length xs + length ys))) x xs y ys
      end
  end.
(** 177-188 [PartialEq] *)
Definition st_eqb (t1 t2 : stext) : res bool :=
  if negb (range_len (st_range t1) =? range_len (st_range t2))%N then Ok false else
  lhs ← tokens_with_ranges t1;
  rhs ← tokens_with_ranges t2;
  '(mismatch, lhs, rhs) ← zip_texts lhs rhs;
  Ok (negb mismatch && forallb (fun it => range_is_empty it.2) lhs && forallb (fun it => range_is_empty it.2) rhs).
