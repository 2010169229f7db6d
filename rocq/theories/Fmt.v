(** * Formatting of syntax trees: [Debug] and [Display]
    (src/api.rs:29-83, src/cursor.rs:1304-1313, 1332-1336), on immutable trees

    A [fmt::Formatter] is its options and the text written so far.  The writer behind it
    may fail: [sink out s = Some n] says that writing [s] after [out] fails once [n]
    characters are through; [None] that it succeeds.  The [Debug] of [L::Kind] and of [str]
    are parameters, each giving one piece of text (user code resp. std). *)
From Verif Require Export CursorMore.
Require Export ZArith.

(** [Display] of [u32] (std): decimal *)
(** std; used by [Debug for TextRange] at api.rs:51, 64 *)
Fixpoint dec_f (fuel : nat) (n : N) : str :=
  match fuel with
  | 0 => []
  | S fuel' => (if n <? 10 then [48 + n] else dec_f fuel' (n / 10) ++ [48 + n mod 10])%N
  end.
(** std; used by [Debug for TextRange] at api.rs:51, 64 *)
Definition dec (n : N) : str := dec_f (S (N.to_nat (N.size n))) n.

(** the literals of the format strings at api.rs:37, 40, 41, 51, 64, 66, 71, 72 *)
Definition s_space : str := [32]%N.
(** the literals of the format strings at api.rs:37, 40, 41, 51, 64, 66, 71, 72 *)
Definition s_indent : str := [32; 32]%N.
(** the literals of the format strings at api.rs:37, 40, 41, 51, 64, 66, 71, 72 *)
Definition s_newline : str := [10]%N.
(** the literals of the format strings at api.rs:37, 40, 41, 51, 64, 66, 71, 72 *)
Definition s_at : str := [64]%N.
(** the literals of the format strings at api.rs:37, 40, 41, 51, 64, 66, 71, 72 *)
Definition s_dots : str := [46; 46]%N.
(** the literals of the format strings at api.rs:37, 40, 41, 51, 64, 66, 71, 72 *)
Definition s_more : str := [32; 46; 46; 46]%N.

(** [i32] addition (std) in the two arithmetic profiles *)
(** std; [level] at api.rs:32, 43, 45 *)
Definition i32_max : Z := 2147483647.
(** std; [level] at api.rs:32, 43, 45 *)
Definition add_i32 (pr : profile) (a b : Z) : res Z :=
  let x := (a + b)%Z in
  if (- i32_max - 1 <=? x)%Z && (x <=? i32_max)%Z then Ok x
  else match pr with
       | Checked => Err Panic
       | Wrapping => Ok ((x + i32_max + 1) mod (2 * i32_max + 2) - i32_max - 1)%Z
       end.

(** the options of a format string that [Formatter::pad] (std) looks at *)
(** std; used by [Display for str] under cursor.rs:1334 *)
Inductive falign := FLeft | FRight | FCenter.
(** std; used by [Display for str] under cursor.rs:1334 *)
Record fopts := FO { fo_width : option nat; fo_prec : option nat; fo_fill : char; fo_align : falign }.
(** std; used by [Display for str] under cursor.rs:1334 *)
Definition fo_default : fopts := FO None None 32%N FLeft.
(** [Formatter::pad] (std): cut to the precision, fill up to the width *)
(** std; used by [Display for str] under cursor.rs:1334 *)
Definition pad (o : fopts) (s : str) : str :=
  let s := match fo_prec o with Some n => take n s | None => s end in
  match fo_width o with
  | None => s
  | Some w =>
      let n := w - length s in
      match fo_align o with
      | FLeft => s ++ replicate n (fo_fill o)
      | FRight => replicate n (fo_fill o) ++ s
      | FCenter => replicate (n / 2) (fo_fill o) ++ s ++ replicate (n - n / 2) (fo_fill o)
      end
  end.

Section fmt.
  Variables (pr : profile) (sink : str -> str -> option nat).
  Variables (kfr : kind -> kind) (kdbg : kind -> str) (sdbg : str -> str).

  (** the outcome of writing: no error, and all the text written so far *)
  (** std [fmt::Write] and [fmt::Result]; the [?] of api.rs:29-83 *)
  Definition fres := res (bool * str).
  (** [Write::write_str] *)
  (** std [fmt::Write] and [fmt::Result]; the [?] of api.rs:29-83 *)
  Definition wstr (s : str) (out : str) : fres :=
    match sink out s with
    | None => Ok (true, out ++ s)
    | Some n => Ok (false, out ++ take n s)
    end.
  (** [a?; b] *)
  (** std [fmt::Write] and [fmt::Result]; the [?] of api.rs:29-83 *)
  Definition wseq (a b : str -> fres) (out : str) : fres :=
    '(ok, out) ← a out; if ok : bool then b out else Ok (false, out).
  (** std [fmt::Write] and [fmt::Result]; the [?] of api.rs:29-83 *)
  Fixpoint wpieces (l : list str) (out : str) : fres :=
    match l with
    | [] => Ok (true, out)
    | s :: l' => wseq (wstr s) (wpieces l') out
    end.

  (** api.rs:50, 65: ["{:?}@{:?}"] of the kind and the range; the range is written as
      ["{}..{}"] by the text-size crate *)
  Definition fmt_head (c : cursor) (out : str) : fres :=
    r ← c_text_range c;
    wpieces [kdbg (kfr (c_kind c)); s_at; dec (rstart r); s_dots; dec (rend r)] out.
  (** cursor.rs:1032-1044 [text] *)
  Definition c_text (c : cursor) : str := match c_green c with GTok _ _ s => s | GNode _ _ _ _ => [] end.
  (** api.rs:70-75: the loop over [idx in 21..25], [unreachable!] after it *)
  Fixpoint cut_at (text : str) (idxs : list N) : res str :=
    match idxs with
    | [] => Err Panic
    | idx :: idxs' =>
        if is_char_boundary text idx then (fun s => s ++ s_more) <$> str_slice text 0 idx
        else cut_at text idxs'
    end.
  (** api.rs:63-78 [Debug for SyntaxToken] *)
  Definition fmt_token (c : cursor) : str -> fres :=
    wseq (fmt_head c)
      (fun out =>
         if (blen (c_text c) <? 25)%N then wpieces [s_space; sdbg (c_text c)] out
         else text ← cut_at (c_text c) [21; 22; 23; 24]%N;
              wpieces [s_space; sdbg text] out).
  (** api.rs:39-42 *)
  Definition fmt_element (c : cursor) : str -> fres :=
    wseq (if c_is_node c then fmt_head c else fmt_token c) (wstr s_newline).
  (** api.rs:31-48: the walk.  [level] is an [i32]. *)
  Fixpoint fmt_loop (fuel : nat) (po : preorder) (level : Z) (out : str) : fres :=
    match fuel with
    | 0 => Err Diverge
    | S fuel' =>
        '(o, po) ← preorder_wt_next po;
        match o with
        | None => _ ← rassert (level =? 0)%Z; Ok (true, out)
        | Some (Enter el) =>
            '(ok, out) ← wseq (wpieces (replicate (Z.to_nat level) s_indent)) (fmt_element el) out;
            if ok : bool then level ← add_i32 pr level 1; fmt_loop fuel' po level out
            else Ok (false, out)
        | Some (Leave _) => level ← add_i32 pr level (-1); fmt_loop fuel' po level out
        end
    end.
  (** api.rs:29-54 [Debug for SyntaxNode] *)
  Definition fmt_node (alternate : bool) (c : cursor) (out : str) : fres :=
    if alternate then fmt_loop (S (2 * gsize (c_green c))) (preorder_new c) 0 out
    else fmt_head c out.

  (** cursor.rs:1332-1336, api.rs:79-83 [Display for SyntaxToken]; the pieces [pad] writes are
      written in one go *)
  Definition display_token (o : fopts) (c : cursor) : str -> fres := wstr (pad o (c_text c)).
  (** cursor.rs:1304-1313, api.rs:56-60 [Display for SyntaxNode] *)
  Fixpoint display_loop (fuel : nat) (o : fopts) (po : preorder) (out : str) : fres :=
    match fuel with
    | 0 => Err Diverge
    | S fuel' =>
        '(e, po) ← preorder_wt_next po;
        match e with
        | None => Ok (true, out)
        | Some (Enter el) =>
            if c_is_node el then display_loop fuel' o po out
            else wseq (display_token o el) (display_loop fuel' o po) out
        | Some (Leave _) => display_loop fuel' o po out
        end
    end.
  (** cursor.rs:1304-1313, api.rs:56-60 [Display for SyntaxNode] *)
  Definition display_node (o : fopts) (c : cursor) (out : str) : fres :=
    display_loop (S (2 * gsize (c_green c))) o (preorder_new c) out.
End fmt.

(** ** Specification *)
(** the number written by decimal digits *)
(** specification *)
Definition undec (l : str) : N := fold_left (fun acc d => acc * 10 + (d - 48))%N l 0%N.
(** [l] is the usual decimal notation of a number: digits, no leading zero *)
(** specification *)
Definition is_decimal (l : str) : Prop :=
  Forall (fun d => 48 <= d <= 57)%N l /\ (l = [48%N] \/ exists d l', l = d :: l' /\ d <> 48%N).
(** the shortest prefix of at least [n] bytes *)
(** specification *)
Fixpoint cut_after (n : N) (s : str) : str :=
  if (n =? 0)%N then [] else
  match s with [] => [] | c :: s' => c :: cut_after (n - width c) s' end.
(** what [Debug] shows of a token's text *)
(** specification *)
Definition shorten (s : str) : str := if (blen s <? 25)%N then s else cut_after 21 s ++ s_more.
(** the line for the element at a position *)
(** specification *)
Definition elem_line (kfr : kind -> kind) (kdbg : kind -> str) (sdbg : str -> str) (root : tree) (p : pos) : str :=
  match tsub root p, trange root p with
  | Some t, Some (a, b) =>
      kdbg (kfr (tkind t)) ++ s_at ++ dec a ++ s_dots ++ dec b ++
      match t with Token _ s => s_space ++ sdbg (shorten s) | Node _ _ => [] end
  | _, _ => []
  end.
(** the dump of the subtree at [p]: a line for each of its elements, in document order,
    indented by two spaces for each level below [p] *)
(** specification *)
Definition dump (kfr : kind -> kind) (kdbg : kind -> str) (sdbg : str -> str) (root : tree) (p : pos) : str :=
  match tsub root p with
  | Some t => concat (map (fun q => concat (replicate (length q) s_indent) ++
                                    elem_line kfr kdbg sdbg root (p ++ q) ++ s_newline) (positions t))
  | None => []
  end.
(** [f] writes [s], or fails just where the writer fails, after writing a part of it *)
(** specification *)
Definition writes (sink : str -> str -> option nat) (f : str -> fres) (s : str) : Prop :=
  forall out, exists ok x,
    f out = Ok (ok, out ++ x) /\ x `prefix_of` s /\ (ok = true -> x = s) /\
    ((forall o1 o2, sink o1 o2 = None) -> ok = true) /\
    (ok = false -> exists y s0 n, sink (out ++ y) s0 = Some n /\ x = y ++ take n s0).
(** the texts of the tokens of a tree, in order *)
(** specification *)
Fixpoint token_texts (t : tree) : list str :=
  match t with Token _ s => [s] | Node _ cs => concat (map token_texts cs) end.
