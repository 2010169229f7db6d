(** * The tutorial's s-expression parser: examples/s_expressions.rs *)
From Verif Require Export CursorMore.

(** s_expressions.rs:14-29 *)
Definition L_PAREN : kind := 0.
(** examples/s_expressions.rs:17-28 *)
Definition R_PAREN : kind := 1.
(** examples/s_expressions.rs:17-28 *)
Definition WORD : kind := 2.
(** examples/s_expressions.rs:17-28 *)
Definition WHITESPACE : kind := 3.
(** examples/s_expressions.rs:17-28 *)
Definition ERROR : kind := 4.
(** examples/s_expressions.rs:17-28 *)
Definition LIST : kind := 5.
(** examples/s_expressions.rs:17-28 *)
Definition ATOM : kind := 6.
(** examples/s_expressions.rs:17-28 *)
Definition ROOT : kind := 7.

Notation tok := (kind * str)%type (only parsing).
(** the two messages: lines 111 and 134 *)
(** examples/s_expressions.rs:111, 134: the messages *)
Inductive serror := EUnmatched | EExpected.
(** lines 91-99 *)
Inductive sexp_res := ROk | REof | RRParen.

Section parser.
  Variables (env : cenv) (pr : profile).
  (** lines 80-89 [Parser]; [tokens] is kept in reverse there and popped from its end, here the
      next token is the first *)
  Record st := ST { p_toks : list tok; p_b : builder; p_errs : list serror }.
  (** a call of the builder by the parser, examples/s_expressions.rs:102-183 *)
  Definition p_op (s : st) (o : bop) : res st := b ← b_op env pr (p_b s) o; Ok (ST (p_toks s) b (p_errs s)).
  (** [self.errors.push(..)], examples/s_expressions.rs:111, 134 *)
  Definition p_error (s : st) (e : serror) : st := ST (p_toks s) (p_b s) (p_errs s ++ [e]).
  (** lines 169-173 *)
  Definition bump (s : st) : res st :=
    match p_toks s with
    | [] => Err Panic
    | (k, t) :: ts => b ← b_op env pr (p_b s) (BToken k t); Ok (ST ts b (p_errs s))
    end.
  (** lines 174-177 *)
  Definition p_current (s : st) : option kind := match p_toks s with [] => None | (k, _) :: _ => Some k end.
  (** lines 178-182 *)
  Fixpoint skip_ws_f (fuel : nat) (s : st) : res st :=
    match fuel with
    | 0 => Err Diverge
    | S fuel' => if decide (p_current s = Some WHITESPACE) then s ← bump s; skip_ws_f fuel' s else Ok s
    end.
  (** examples/s_expressions.rs:178-182 *)
  Definition skip_ws (s : st) : res st := skip_ws_f (S (length (p_toks s))) s.
  (** lines 147-168 [sexp], 126-146 [list] and its loop (131-143); the fuel is for the recursion *)
  Fixpoint sexp (fuel : nat) (s : st) : res (sexp_res * st) :=
    match fuel with
    | 0 => Err Diverge
    | S fuel' =>
        s ← skip_ws s;
        match p_current s with
        | None => Ok (REof, s)
        | Some t =>
            if decide (t = R_PAREN) then Ok (RRParen, s)
            else if decide (t = L_PAREN) then s ← list_node fuel' s; Ok (ROk, s)
            else if decide (t = WORD) then
              s ← p_op s (BStartNode ATOM); s ← bump s; s ← p_op s BFinishNode; Ok (ROk, s)
            else if decide (t = ERROR) then s ← bump s; Ok (ROk, s)
            else Err Panic
        end
    end
  with list_node (fuel : nat) (s : st) : res st :=
    match fuel with
    | 0 => Err Diverge
    | S fuel' =>
        _ ← rassert (bool_decide (p_current s = Some L_PAREN));
        s ← p_op s (BStartNode LIST);
        s ← bump s;
        s ← list_loop fuel' s;
        p_op s BFinishNode
    end
  with list_loop (fuel : nat) (s : st) : res st :=
    match fuel with
    | 0 => Err Diverge
    | S fuel' =>
        '(r, s) ← sexp fuel' s;
        match r with
        | REof => Ok (p_error s EExpected)
        | RRParen => bump s
        | ROk => list_loop fuel' s
        end
    end.
  (** lines 106-117: the loop of [parse] *)
  Fixpoint parse_loop (fuel : nat) (s : st) : res st :=
    match fuel with
    | 0 => Err Diverge
    | S fuel' =>
        '(r, s) ← sexp (3 * length (p_toks s) + 1) s;
        match r with
        | REof => Ok s
        | RRParen =>
            s ← p_op s (BStartNode ERROR);
            s ← bump (p_error s EUnmatched);
            s ← p_op s BFinishNode;
            parse_loop fuel' s
        | ROk => parse_loop fuel' s
        end
    end.
  (** lines 102-125 [Parser::parse] and 185-187; the cache of the builder is a parameter *)
  Definition parse (c : cache) (toks : list tok) : res (green * list serror) :=
    s ← p_op (ST toks (builder_new c) []) (BStartNode ROOT);
    s ← parse_loop (S (length toks)) s;
    s ← skip_ws s;
    s ← p_op s BFinishNode;
    g ← b_finish (p_b s);
    Ok (g, p_errs s).
End parser.

(** lines 388-423 [lex]: what is done with the lengths and kinds the lexer (crate m_lexer)
    gives for the text *)
Fixpoint lex_scan (text : str) (off : N) (lexed : list (N * kind)) : res (list tok) :=
  match lexed with
  | [] => Ok []
  | (len, k) :: l =>
      if (4 <? k)%N then Err Panic else
      s ← str_slice text off (off + len);
      ts ← lex_scan text (off + len) l;
      Ok ((k, s) :: ts)
  end.
(** examples/s_expressions.rs:388-424 *)
Definition lex (text : str) (lexed : list (N * kind)) : res (list tok) := lex_scan text 0 lexed.

(** ** Evaluation *)
(** [i64] arithmetic (std) in the two profiles *)
(** std; used at examples/s_expressions.rs:345-351 *)
Definition i64_max : Z := 9223372036854775807.
(** std; used at examples/s_expressions.rs:345-351 *)
Definition i64_res (pr : profile) (x : Z) : res Z :=
  if (- i64_max - 1 <=? x)%Z && (x <=? i64_max)%Z then Ok x
  else match pr with
       | Checked => Err Panic
       | Wrapping => Ok ((x + i64_max + 1) mod (2 * i64_max + 2) - i64_max - 1)%Z
       end.
(** [i64 / i64]: truncating; the overflow of MIN / -1 panics in both profiles *)
(** std; used at examples/s_expressions.rs:345-351 *)
Definition i64_div (a b : Z) : res Z := i64_res Checked (Z.quot a b).
(** examples/s_expressions.rs:305-310 *)
Inductive sop := OAdd | OSub | ODiv | OMul.

Section eval.
  (** [str::parse::<i64>] (std) *)
  Variables (pr : profile) (parse_i64 : str -> option Z).
  (** lines 259-261, 266-268 [Atom::cast], [List::cast]; 281-287 [Sexp::cast] *)
  Definition is_atom (c : cursor) : bool := (c_kind c =? ATOM)%N.
  (** examples/s_expressions.rs:252-270 *)
  Definition is_list (c : cursor) : bool := (c_kind c =? LIST)%N.
  (** examples/s_expressions.rs:280-287 *)
  Definition is_sexp (c : cursor) : bool := is_atom c || is_list c.
  (** lines 300-302, 335-337: [sexps], to the end *)
  Definition sexps (c : cursor) : res (list cursor) :=
    l ← children c; Ok (filter_map (fun d => if is_sexp d then Some d else None) l).
  (** lines 326-331 [Atom::text] *)
  Definition atom_text (c : cursor) : res str :=
    match gchildren (c_green c) with
    | (_, GTok _ _ s) :: _ => Ok s
    | _ => Err Panic
    end.
  (** lines 316-325 [as_op], 313-315 [Atom::eval] *)
  Definition word_op (s : str) : option sop :=
    match s with
    | [43] => Some OAdd
    | [45] => Some OSub
    | [42] => Some OMul
    | [47] => Some ODiv
    | _ => None
    end%N.
  (** examples/s_expressions.rs:316-325 *)
  Definition as_op (c : cursor) : res (option sop) := s ← atom_text c; Ok (word_op s).
  (** examples/s_expressions.rs:313-315 *)
  Definition atom_eval (c : cursor) : res (option Z) := s ← atom_text c; Ok (parse_i64 s).
  (** lines 345-352: the operation *)
  Definition op_eval (o : sop) (a b : Z) : res (option Z) :=
    match o with
    | OAdd => Some <$> i64_res pr (a + b)%Z
    | OSub => Some <$> i64_res pr (a - b)%Z
    | OMul => Some <$> i64_res pr (a * b)%Z
    | ODiv => if (b =? 0)%Z then Ok None else Some <$> i64_div a b
    end.
  (** lines 357-362 [Sexp::eval] with 289-294 [Sexp::kind], 338-353 [List::eval]; the iterators are run to the end where the
      code takes their first, second and third item *)
  Fixpoint sexp_eval (fuel : nat) (c : cursor) : res (option Z) :=
    match fuel with
    | 0 => Err Diverge
    | S fuel' =>
        if is_atom c then atom_eval c
        else if negb (is_list c) then Err Panic
        else
          l ← sexps c;
          match l !! 0 with
          | None => Ok None
          | Some op =>
              if negb (is_atom op) then Ok None else
              o ← as_op op;
              match o with
              | None => Ok None
              | Some o =>
                  match l !! 1 with
                  | None => Ok None
                  | Some a =>
                      a ← sexp_eval fuel' a;
                      match a with
                      | None => Ok None
                      | Some a =>
                          match l !! 2 with
                          | None => Ok None
                          | Some b =>
                              b ← sexp_eval fuel' b;
                              match b with None => Ok None | Some b => op_eval o a b end
                          end
                      end
                  end
              end
          end
    end.
  (** lines 366-368, 380-381: [parse(text).root()] and the results of all its s-expressions *)
  Fixpoint mapM_res {A B} (f : A -> res B) (l : list A) : res (list B) :=
    match l with [] => Ok [] | x :: l' => y ← f x; ys ← mapM_res f l'; Ok (y :: ys) end.
  (** examples/s_expressions.rs:300-302, 357-362 *)
  Definition eval_root (g : green) : res (list (option Z)) :=
    let c := new_root g in
    _ ← rassert (c_kind c =? ROOT)%N;
    l ← sexps c; mapM_res (fun d => sexp_eval (gsize (c_green d)) d) l.
End eval.

(** ** Specification: a stack machine

    [cur]: the elements of the innermost open list (of the root if none is open); [outer]:
    those before the open lists, innermost first. *)
Definition t_tok (t : tok) : tree := Token t.1 t.2.
(** specification *)
Fixpoint sx_close (cur : list tree) (outer : list (list tree)) (errs : list serror) : tree * list serror :=
  match outer with
  | [] => (Node ROOT cur, errs)
  | before :: outer' => sx_close (before ++ [Node LIST cur]) outer' (errs ++ [EExpected])
  end.
(** specification *)
Fixpoint sx_run (cur : list tree) (outer : list (list tree)) (errs : list serror) (ts : list tok) : tree * list serror :=
  match ts with
  | [] => sx_close cur outer errs
  | t :: ts' =>
      if decide (t.1 = L_PAREN) then sx_run [t_tok t] (cur :: outer) errs ts'
      else if decide (t.1 = R_PAREN) then
        match outer with
        | [] => sx_run (cur ++ [Node ERROR [t_tok t]]) [] (errs ++ [EUnmatched]) ts'
        | before :: outer' => sx_run (before ++ [Node LIST (cur ++ [t_tok t])]) outer' errs ts'
        end
      else sx_run (cur ++ [if decide (t.1 = WORD) then Node ATOM [t_tok t] else t_tok t]) outer errs ts'
  end.
(** the tree and the errors for a token sequence *)
(** specification *)
Definition sx_tree (ts : list tok) : tree := (sx_run [] [] [] ts).1.
(** specification *)
Definition sx_errs (ts : list tok) : list serror := (sx_run [] [] [] ts).2.
(** the tokens of a tree *)
(** specification *)
Fixpoint ttokens (t : tree) : list tok :=
  match t with Token k s => [(k, s)] | Node _ cs => concat (map ttokens cs) end.
(** specification *)
Definition toks_text (ts : list tok) : str := concat (map snd ts).
(** every parenthesis has a partner: [d] are open *)
(** specification *)
Fixpoint paren_ok (d : nat) (ts : list tok) : bool :=
  match ts with
  | [] => d =? 0
  | t :: ts' =>
      if decide (t.1 = L_PAREN) then paren_ok (S d) ts'
      else if decide (t.1 = R_PAREN) then match d with 0 => false | S d' => paren_ok d' ts' end
      else paren_ok d ts'
  end.
(** the value of an s-expression, read off the tree; [None]: not a number *)
(** specification *)
Definition sub_sexps (t : tree) : list tree :=
  filter_map (fun c => match c with Node k _ => if (k =? ATOM) || (k =? LIST) then Some c else None | Token _ _ => None end)%N (tchildren t).
(** specification *)
Definition sop_text (o : sop) : str :=
  match o with OAdd => [43%N] | OSub => [45%N] | OMul => [42%N] | ODiv => [47%N] end.
(** specification *)
Definition t_op (t : tree) : option sop :=
  List.find (fun o => bool_decide (ttext t = sop_text o)) [OAdd; OSub; OMul; ODiv].
(** specification *)
Fixpoint t_eval (pr : profile) (parse_i64 : str -> option Z) (fuel : nat) (t : tree) : res (option Z) :=
  match fuel with
  | 0 => Err Diverge
  | S fuel' =>
      if (tkind t =? ATOM)%N then Ok (parse_i64 (ttext t)) else
      match sub_sexps t with
      | op :: a :: rest =>
          if negb (tkind op =? ATOM)%N then Ok None else
          match t_op op with
          | None => Ok None
          | Some o =>
              a ← t_eval pr parse_i64 fuel' a;
              match a, rest with
              | Some a, b :: _ =>
                  b ← t_eval pr parse_i64 fuel' b;
                  match b with Some b => op_eval pr o a b | None => Ok None end
              | _, _ => Ok None
              end
          end
      | _ => Ok None
      end
  end.

(** ** Arithmetic expressions and the ways to write them down *)
(** specification *)
Inductive expr := ENum (s : str) | EBin (o : sop) (a b : expr).
(** white space, and pieces of text the lexer has no token for *)
(** specification *)
Definition trivia (ts : list tok) : Prop := Forall (fun t => t.1 = WHITESPACE \/ t.1 = ERROR) ts.
(** specification *)
Inductive shown : expr -> list tok -> Prop :=
| shown_num s : shown (ENum s) [(WORD, s)]
| shown_bin o a b la lb w1 w2 w3 w4 lp rp :
    trivia w1 -> trivia w2 -> trivia w3 -> trivia w4 -> shown a la -> shown b lb ->
    shown (EBin o a b)
      ((L_PAREN, lp) :: w1 ++ (WORD, sop_text o) :: w2 ++ la ++ w3 ++ lb ++ w4 ++ [(R_PAREN, rp)]).
(** specification *)
Inductive shown_all : list expr -> list tok -> Prop :=
| shown_all_nil w : trivia w -> shown_all [] w
| shown_all_cons e es w l ls : trivia w -> shown e l -> shown_all es ls -> shown_all (e :: es) (w ++ l ++ ls).
(** its value, left to right; the result of dividing by zero or of a word that is no number is [None] *)
(** specification *)
Fixpoint value (pr : profile) (parse_i64 : str -> option Z) (e : expr) : res (option Z) :=
  match e with
  | ENum s => Ok (parse_i64 s)
  | EBin o a b =>
      x ← value pr parse_i64 a;
      match x with
      | None => Ok None
      | Some x =>
          y ← value pr parse_i64 b;
          match y with
          | None => Ok None
          | Some y =>
              match o with
              | OAdd => Some <$> i64_res pr (x + y)%Z
              | OSub => Some <$> i64_res pr (x - y)%Z
              | OMul => Some <$> i64_res pr (x * y)%Z
              | ODiv => if decide (y = 0%Z) then Ok None else Some <$> i64_div x y
              end
          end
      end
  end.
