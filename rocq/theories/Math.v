(** * The arithmetic example parser: examples/math.rs *)
From Verif Require Export CursorMore.

(** math.rs:19-36 *)
Definition M_WHITESPACE : kind := 0.
(** examples/math.rs:22-34 *)
Definition M_ADD : kind := 1.
(** examples/math.rs:22-34 *)
Definition M_SUB : kind := 2.
(** examples/math.rs:22-34 *)
Definition M_MUL : kind := 3.
(** examples/math.rs:22-34 *)
Definition M_DIV : kind := 4.
(** examples/math.rs:22-34 *)
Definition M_NUMBER : kind := 5.
(** examples/math.rs:22-34 *)
Definition M_ERROR : kind := 6.
(** examples/math.rs:22-34 *)
Definition M_OPERATION : kind := 7.
(** examples/math.rs:22-34 *)
Definition M_ROOT : kind := 8.

Notation mtok := (kind * str)%type (only parsing).
Section parser.
  Variables (env : cenv) (pr : profile).
  (** lines 63-66 [Parser]; the peekable iterator as the list of what is to come *)
  Record mst := MT { m_toks : list mtok; m_b : builder }.
  (** a call of the builder by the parser, examples/math.rs:63-112 *)
  Definition m_op (s : mst) (o : bop) : res mst := b ← b_op env pr (m_b s) o; Ok (MT (m_toks s) b).
  (** lines 74-78 *)
  Definition m_bump (s : mst) : res mst :=
    match m_toks s with
    | [] => Ok s
    | (k, t) :: ts => b ← b_op env pr (m_b s) (BToken k t); Ok (MT ts b)
    end.
  (** examples/math.rs:72 *)
  Definition m_next_kind (ts : list mtok) : option kind := match ts with [] => None | (k, _) :: _ => Some k end.
  (** lines 68-73: the loop, and then what it peeks at *)
  Fixpoint m_skip (fuel : nat) (s : mst) : res mst :=
    match fuel with
    | 0 => Err Diverge
    | S fuel' => if decide (m_next_kind (m_toks s) = Some M_WHITESPACE) then s ← m_bump s; m_skip fuel' s else Ok s
    end.
  (** examples/math.rs:68-73 *)
  Definition m_peek (s : mst) : res (option kind * mst) :=
    s ← m_skip (S (length (m_toks s))) s; Ok (m_next_kind (m_toks s), s).
  (** lines 79-88 *)
  Definition m_parse_val (s : mst) : res mst :=
    '(t, s) ← m_peek s;
    if decide (t = Some M_NUMBER) then m_bump s
    else s ← m_op s (BStartNode M_ERROR); s ← m_bump s; m_op s BFinishNode.
  (** lines 92-97: the loop of [handle_operation] *)
  Fixpoint m_loop (fuel : nat) (tokens : list kind) (next : mst -> res mst) (checkpoint : nat) (s : mst) : res mst :=
    match fuel with
    | 0 => Err Diverge
    | S fuel' =>
        '(t, s) ← m_peek s;
        if match t with Some t => bool_decide (t ∈ tokens) | None => false end then
          s ← m_op s (BStartNodeAt checkpoint M_OPERATION);
          s ← m_bump s;
          s ← next s;
          s ← m_op s BFinishNode;
          m_loop fuel' tokens next checkpoint s
        else Ok s
    end.
  (** lines 89-98 *)
  Definition m_handle_operation (tokens : list kind) (next : mst -> res mst) (s : mst) : res mst :=
    let checkpoint := b_checkpoint (m_b s) in
    s ← next s;
    m_loop (S (length (m_toks s))) tokens next checkpoint s.
  (** lines 99-104 *)
  Definition m_parse_mul : mst -> res mst := m_handle_operation [M_MUL; M_DIV] m_parse_val.
  (** examples/math.rs:102-104 *)
  Definition m_parse_add : mst -> res mst := m_handle_operation [M_ADD; M_SUB] m_parse_mul.
  (** lines 105-111; the cache of the builder is a parameter *)
  Definition m_parse (c : cache) (toks : list mtok) : res cursor :=
    s ← m_op (MT toks (builder_new c)) (BStartNode M_ROOT);
    s ← m_parse_add s;
    s ← m_op s BFinishNode;
    g ← b_finish (m_b s);
    Ok (new_root g).
End parser.

(** ** Specification: a left-recursive grammar with two precedences

    [G els rest]: the elements [els] are what the grammar makes of the tokens before [rest]. *)
Definition m_tok (t : mtok) : tree := Token t.1 t.2.
(** specification *)
Fixpoint m_leaves (t : tree) : list mtok :=
  match t with Token k s => [(k, s)] | Node _ cs => concat (map m_leaves cs) end.
(** specification *)
Definition m_leaves_of (ts : list tree) : list mtok := concat (map m_leaves ts).
(** specification *)
Definition m_text (ts : list mtok) : str := concat (map snd ts).
(** specification *)
Definition spaces (ws : list mtok) : Prop := Forall (fun t => t.1 = M_WHITESPACE) ws.
(** the next token is of none of the kinds [ks] *)
(** specification *)
Definition not_next (ks : list kind) (ts : list mtok) : Prop := match ts with [] => True | t :: _ => t.1 ∉ ks end.

(** a number; any other token is wrapped as an error; so is the end of input *)
(** specification *)
Inductive val_g : list tree -> list mtok -> Prop :=
| val_number ws s rest : spaces ws -> val_g (map m_tok ws ++ [Token M_NUMBER s]) rest
| val_error ws t rest : spaces ws -> t.1 <> M_NUMBER -> t.1 <> M_WHITESPACE -> val_g (map m_tok ws ++ [Node M_ERROR [m_tok t]]) rest
| val_end ws : spaces ws -> val_g (map m_tok ws ++ [Node M_ERROR []]) [].
(** [level]: operands [G], or an operation whose left side is again of this level *)
(** specification *)
Inductive level (ops : list kind) (G : list tree -> list mtok -> Prop) : list tree -> list mtok -> Prop :=
| level_operand L rest : G L rest -> level ops G L rest
| level_operation L ws o s R rest :
    level ops G L (ws ++ (o, s) :: m_leaves_of R ++ rest) -> spaces ws -> o ∈ ops -> G R rest ->
    level ops G [Node M_OPERATION (L ++ map m_tok ws ++ Token o s :: R)] rest.
(** as much of it as there is, with the white space after it *)
(** specification *)
Definition level_g (ops : list kind) (G : list tree -> list mtok -> Prop) (els : list tree) (rest : list mtok) : Prop :=
  exists L ws, els = L ++ map m_tok ws /\ level ops G L (ws ++ rest) /\ spaces ws /\ not_next (M_WHITESPACE :: ops) rest.
(** specification *)
Definition mul_g := level_g [M_MUL; M_DIV] val_g.
(** specification *)
Definition add_g := level_g [M_ADD; M_SUB] mul_g.

(** sequences of numbers with operators between them, and white space anywhere *)
(** specification *)
Definition m_ops : list kind := [M_ADD; M_SUB; M_MUL; M_DIV].
(** specification *)
Fixpoint wants_val (ts : list mtok) : bool :=
  match ts with
  | [] => false
  | t :: ts' =>
      if decide (t.1 = M_WHITESPACE) then wants_val ts'
      else bool_decide (t.1 = M_NUMBER) && wants_op ts'
  end
with wants_op (ts : list mtok) : bool :=
  match ts with
  | [] => true
  | t :: ts' =>
      if decide (t.1 = M_WHITESPACE) then wants_op ts'
      else bool_decide (t.1 ∈ m_ops) && wants_val ts'
  end.
(** no error node *)
(** specification *)
Fixpoint m_no_error (t : tree) : bool :=
  match t with Token _ _ => true | Node k cs => negb (k =? M_ERROR)%N && forallb m_no_error cs end.
