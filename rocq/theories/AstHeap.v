(** * src/ast.rs as programs on handles

    As in Compound.v: clones and drops as in the code, [p_look] where the code reads
    [kind()], [text_range()] or [is_mutable()] or matches on [NodeOrToken].  A [Language]
    enters through [kfr] (api.rs:8-13), an [AstNode] type through its [cast], which may look
    at anything that can be seen of the node it gets: on [false] it drops the node and
    returns [None], on [true] it returns a value that owns the node (ast.rs:36-38). *)
From Verif Require Export AstFacts ShowFacts.
Local Open Scope nat_scope.

(** ast.rs:73-76 [SyntaxNodePtr::new], 140-143 [AstPtr::new] *)
Definition p_ptr_new (kfr : kind -> kind) (s : nat) : script node_ptr :=
  l ← p_look s; _ ← p_assert (negb (l_mut l)); PRet (PTR (kfr (l_kind l)) (l_trange l)).
(** utility_types.rs:14-19 [into_node] *)
Definition p_into_node (o : option nat) : script (option nat) :=
  match o with
  | Some s => l ← p_look s; if is_node (l_tree l) then PRet (Some s) else _ ← p_drop s; PRet None
  | None => PRet None
  end.
(** the closure of ast.rs:103 *)
Definition p_ptr_succ (r : TextRange.range) (s : nat) : script (option nat) := o ← p_at_range (rstart r) (rend r) s; p_into_node o.
(** the closure of ast.rs:104 *)
Definition p_ptr_matches (kfr : kind -> kind) (ptr : node_ptr) (s : nat) : script bool :=
  l ← p_look s; PRet (range_eqb (l_trange l) (ptr_range ptr) && (kfr (l_kind l) =? ptr_kind ptr)%N).
(** [Iterator::find] (std) on an iterator over handles, which is dropped afterwards *)
(** used at ast.rs:104 *)
Fixpoint p_find {S} (next : p_iter S nat) (drop : S -> script unit) (f : nat -> script bool) (fuel : nat) (it : S) : script (option nat) :=
  match fuel with
  | 0 => PDiverge
  | S fuel' =>
      '(o, it) ← next it;
      match o with
      | None => _ ← drop it; PRet None
      | Some a => b ← f a; if b : bool then _ ← drop it; PRet (Some a) else _ ← p_drop a; p_find next drop f fuel' it
      end
  end.
(** ast.rs:98-105 [try_to_node]; the number of nodes bounds the number of steps *)
Definition p_try_to_node (kfr : kind -> kind) (ptr : node_ptr) (s : nat) : script (option nat) :=
  l ← p_look s;
  _ ← p_assert (negb (l_mut l));
  o ← p_nav NParent s;
  match o with
  | Some p => _ ← p_drop p; PRet None
  | None =>
      c ← p_clone s;
      p_find (p_succ_next (p_ptr_succ (ptr_range ptr))) p_drop_opt (p_ptr_matches kfr ptr) (S (tsize (l_tree l))) (Some c)
  end.
(** [Option::unwrap], [unwrap_or_else(|| panic!(..))] (std) *)
(** used at ast.rs:81, 147 *)
Definition p_unwrap {A} (o : option A) : script A := match o with Some a => PRet a | None => PPanic end.
(** ast.rs:80-82 [to_node] *)
Definition p_to_node (kfr : kind -> kind) (ptr : node_ptr) (s : nat) : script nat := o ← p_try_to_node kfr ptr s; p_unwrap o.
(** [AstNode::cast] (ast.rs:36-38) *)
Definition p_cast (cast : look -> bool) (s : nat) : script (option nat) :=
  l ← p_look s; if cast l then PRet (Some s) else _ ← p_drop s; PRet None.
(** ast.rs:152-155 [AstPtr::try_to_node] *)
Definition p_ast_try_to_node (kfr : kind -> kind) (cast : look -> bool) (ptr : node_ptr) (s : nat) : script (option nat) :=
  o ← p_try_to_node kfr ptr s;
  match o with Some d => p_cast cast d | None => PRet None end.
(** ast.rs:146-148 [AstPtr::to_node] *)
Definition p_ast_to_node (kfr : kind -> kind) (cast : look -> bool) (ptr : node_ptr) (s : nat) : script nat :=
  o ← p_ast_try_to_node kfr cast ptr s; p_unwrap o.

(** [Iterator::find_map] (std): also the state it stops in *)
(** used at ast.rs:218, 227 *)
Fixpoint p_find_map {S} (next : p_iter S nat) (f : nat -> script (option nat)) (fuel : nat) (it : S) : script (option nat * S) :=
  match fuel with
  | 0 => PDiverge
  | S fuel' =>
      '(o, it) ← next it;
      match o with
      | None => PRet (None, it)
      | Some a => r ← f a; match r with Some b => PRet (Some b, it) | None => p_find_map next f fuel' it end
      end
  end.
(** ast.rs:226-228 [support::child] *)
Definition p_ast_child (cast : look -> bool) (fuel : nat) (s : nat) : script (option nat) :=
  it ← p_kids_new s;
  '(o, it) ← p_find_map (p_kids_next false) (p_cast cast) fuel it;
  _ ← p_kids_drop it; PRet o.
(** ast.rs:203-220 [AstChildren::next] *)
Definition p_ast_next (cast : look -> bool) (fuel : nat) : p_iter Compound.kids nat := p_find_map (p_kids_next false) (p_cast cast) fuel.
(** ast.rs:209-213, 230-232 [support::children], to the end *)
Definition p_ast_children (cast : look -> bool) (fuel : nat) (s : nat) : script (list nat) :=
  it ← p_kids_new s; p_collect (p_ast_next cast fuel) p_kids_drop fuel it.
(** ast.rs:234-236 [support::token]; [filter_map] and [find] in one pass *)
Definition p_ast_token (kfr : kind -> kind) (k : kind) (fuel : nat) (s : nat) : script (option nat) :=
  it ← p_kids_new s;
  '(o, it) ← p_find_map (p_kids_next true) (p_cast (fun l => negb (is_node (l_tree l)) && (kfr (l_kind l) =? k)%N)) fuel it;
  _ ← p_kids_drop it; PRet o.
(** ast.rs:42-47, 49-54 [AstNode::clone_for_update], [AstNode::clone_subtree] *)
Definition p_ast_clone (update : bool) (cast : look -> bool) (s : nat) : script nat :=
  c ← POp (if update then OCloneForUpdate s else OCloneSubtree s) p_slot;
  o ← p_cast cast c; p_unwrap o.

(** ** They do on any tree what layer 4 does on immutable trees *)
Section facts.
Context (T : list (bool * tree)) (G : list (option tree)) (K : list nat).
Context (n : nat) (m : bool) (root : green) (HT : T !! n = Some (m, erase root)) (Hwf : wfg root) (Hco : coherent root).
Local Notation tr := (tracks T G K).
Local Notation own c s := (s, (n, c_path c)).
Local Notation look_of := (look_of m root).

Lemma tr_ptr_new kfr s c F : cin root c -> own c s ∈ F ->
  tr F (p_ptr_new kfr s) (if m then Err Panic else ptr_new kfr c) (fun b a F' => a = b /\ F' = F).
Proof using HT Hwf.
  intros Hc Hin. unfold p_ptr_new. eapply (tr_look T G K n m root HT); [exact Hc|done|]. cbn [Tracks.look_of look_at l_mut].
  destruct m; [apply tr_panic|]. unfold ptr_new. rewrite (look_trange m root Hwf c Hc). cbn [mbind res_bind negb p_assert].
  eapply tr_ret; [reflexivity|]. split; [|done]. f_equal. f_equal. apply (l_kind_look false root).
Qed.
(** [find] on an iterator over handles *)
Lemma tr_find {S S'} (pn : p_iter S nat) (pd : S -> script unit) (cn : Cursor.iter S' cursor) (pf : nat -> script bool) (cf : cursor -> res bool)
    (Ri : cursor -> nat -> rs -> Prop) (It : S' -> S -> rs -> Prop) :
  (forall c s F, Ri c s F -> exists h, F = [(s, h)]) ->
  (forall cit it F, It cit it F -> tr F (pn it) (cn cit) (stepped Ri It)) ->
  (forall cit it F, It cit it F -> tr F (pd it) (Ok ()) (fun _ _ F' => F' = [])) ->
  (forall c s F, Ri c s F -> tr F (pf s) (cf c) (fun b a F' => a = b /\ F' = F)) ->
  forall fuel cit it F, It cit it F -> tr F (p_find pn pd pf fuel it) (find_next cn cf fuel cit) (Ropt Ri).
Proof.
  intros Hone Hn Hd Hf. induction fuel as [|fuel IH]; intros cit it F Hit; [by apply tr_err|]. cbn [p_find find_next].
  eapply tr_call; [by apply Hn|by rewrite app_nil_r|]. intros [a it'] [b cit'] F' (F1&F2&HF&HR&Hit'). cbn [fst snd] in *. rewrite app_nil_r.
  unfold Ropt in HR. destruct b as [b|], a as [a|]; try done.
  - eapply tr_call; [by apply Hf|exact HF|]. intros r r' F3 [-> ->]. destruct r'.
    + change (Ok (Some b)) with (Ok () ≫= fun _ : unit => Ok (Some b)). eapply tr_call; [eapply Hd; exact Hit'|apply Permutation_app_comm|].
      intros [] [] F3 ->. by eapply tr_ret.
    + destruct (Hone _ _ _ HR) as [h ->]. apply (tr_drop T G K _ F2 a h); [reflexivity|]. by apply IH.
  - subst F1. change (Ok (@None cursor)) with (Ok () ≫= fun _ : unit => Ok (@None cursor)). eapply tr_call; [eapply Hd; exact Hit'|by rewrite app_nil_r|].
    intros [] [] F3 ->. by eapply tr_ret.
Qed.
Lemma tr_ptr_succ {A B} r s c (k : option nat -> script A) (f : option cursor -> res B) S F : cin root c -> c_is_node c = true -> own c s ∈ F -> range_ok r ->
  (forall o a Fo, Ropt (Rn n root false) o a Fo -> tr (Fo ++ F) (k a) (f o) S) ->
  tr F (p_ptr_succ r s ≫= k) (ptr_succ r c ≫= f) S.
Proof using HT Hwf.
  intros Hc Hn Hin Hr Hk. unfold p_ptr_succ, ptr_succ. apply tr_assoc. rewrite res_bind_assoc. destruct r as [a b]. cbn [rstart rend].
  eapply (tr_at_range T G K n m root HT Hwf); [exact Hc|done|done|done|]. intros o x Fo HR Ho. unfold Ropt in HR. destruct o as [d|], x as [y|]; try done.
  - destruct HR as [Hd ->]. cbn [p_into_node]. apply tr_assoc. eapply (tr_look T G K n m root HT); [exact Hd|left|]. rewrite l_node_look. cbn [mbind res_bind].
    destruct (c_is_node d) eqn:En.
    + by apply (Hk (Some d) (Some y) [own d y]).
    + apply tr_assoc. apply (tr_drop T G K _ F y (n, c_path d)); [reflexivity|]. by apply (Hk None None []).
  - subst Fo. by apply (Hk None None []).
Qed.
Lemma tr_ptr_matches kfr ptr s c F : cin root c -> own c s ∈ F -> tr F (p_ptr_matches kfr ptr s) (ptr_matches kfr ptr c) (fun b a F' => a = b /\ F' = F).
Proof using HT Hwf.
  intros Hc Hin. unfold p_ptr_matches, ptr_matches. eapply (tr_look T G K n m root HT); [exact Hc|done|]. rewrite (look_trange m root Hwf c Hc), l_kind_look. by eapply tr_ret.
Qed.
Lemma tr_try_to_node kfr ptr s c : cin root c -> c_is_node c = true -> range_ok (ptr_range ptr) ->
  tr [own c s] (p_try_to_node kfr ptr s) (if m then Err Panic else try_to_node kfr ptr c) (kept [own c s] (Ropt (Rn n root false))).
Proof using HT Hwf.
  intros Hc Hn Hr. unfold p_try_to_node. eapply (tr_look T G K n m root HT); [exact Hc|left|]. cbn [Tracks.look_of look_at l_mut l_tree].
  match goal with |- tr ?F (_ ≫= ?k) _ ?R => assert (Hgen : tr F (k ()) (try_to_node kfr ptr c) R) end.
  2:{ destruct m; [apply tr_panic|]. exact Hgen. }
  assert (Ep : try_to_node kfr ptr c = (c_nav NParent c ≫= fun o : option cursor => if o then Ok None else
    find_next (successors_next (ptr_succ (ptr_range ptr))) (ptr_matches kfr ptr) (S (gsize (c_green c))) (Some c))) by done.
  rewrite Ep. eapply (tr_nav T G K n m root HT Hwf); [exact Hc|left|done|]. intros o a Fo HR Ho. unfold Ropt in HR. destruct o as [p|], a as [x|]; try done.
  - destruct HR as [Hp ->]. apply (tr_drop T G K _ [own c s] x (n, c_path p)); [reflexivity|]. eapply tr_ret; [reflexivity|]. by exists [].
  - subst Fo. eapply tr_clone; [left|]. intros s'. rewrite <- gsize_erase. apply tr_bind_ret. rewrite <- (res_bind_ret (find_next _ _ _ _)).
    eapply tr_call; [|instantiate (1 := [own c s]); instantiate (1 := [own c s']); reflexivity|].
    + eapply tr_find with (It := Ropt (Rn n root false)); [apply Rn_one|..].
      * intros o a F HR'. unfold Ropt in HR'. destruct o as [d|], a as [y|]; try done; cbn [p_succ_next successors_next].
        -- destruct HR' as [[Hd ->] Hdn]. eapply (tr_ptr_succ _ _ d); [done|by apply Hdn|left|done|]. intros o a Fo HR'.
           eapply tr_ret; [reflexivity|]. exists [own d y], Fo. split; [apply Permutation_app_comm|]. by split.
        -- subst F. eapply tr_ret; [reflexivity|]. by exists [], [].
      * intros o a F HR'. apply tr_bind_ret. eapply tr_drop_opt; [apply Rn_one|exact HR'|by rewrite app_nil_r|]. by eapply tr_ret.
      * intros d y F [[Hd ->] Hdn]. eapply tr_ptr_matches; [done|left].
      * by split.
    + intros a b F' HR'. eapply tr_ret; [reflexivity|]. by exists F'.
Qed.

(** ** Typed accessors *)
(** specification *)
Definition cast_of (cast : look -> bool) (c : cursor) : option cursor := if cast (look_of c) then Some c else None.
Lemma tr_cast {A B} cast s c (k : option nat -> script A) (r : res B) S F F0 : cin root c -> F ≡ₚ own c s :: F0 ->
  (cast (look_of c) = true -> tr F (k (Some s)) r S) -> (cast (look_of c) = false -> tr F0 (k None) r S) -> tr F (p_cast cast s ≫= k) r S.
Proof using HT.
  intros Hc HF H1 H2. unfold p_cast. apply tr_assoc. eapply (tr_look T G K n m root HT); [exact Hc|rewrite HF; left|]. destruct (cast (look_of c)).
  - by apply H1.
  - apply tr_assoc. eapply tr_drop; [exact HF|]. by apply H2.
Qed.
Lemma tr_unwrap_kept {A B} F F0 (o : option B) (a : option A) (R : B -> A -> rs -> Prop) : kept F0 (Ropt R) o a F -> tr F (p_unwrap a) (unwrap o) (kept F0 R).
Proof.
  intros (F1&HF&HR). unfold Ropt in HR. destruct o, a; try done; [|apply tr_panic]. eapply tr_ret; [reflexivity|]. by exists F1.
Qed.
Lemma tr_to_node kfr ptr s c : cin root c -> c_is_node c = true -> range_ok (ptr_range ptr) ->
  tr [own c s] (p_to_node kfr ptr s) (if m then Err Panic else to_node kfr ptr c) (kept [own c s] (Rn n root false)).
Proof using HT Hwf.
  intros Hc Hn Hr. assert (E : (if m then Err Panic else to_node kfr ptr c) = ((if m then Err Panic else try_to_node kfr ptr c) ≫= unwrap)) by (by destruct m).
  rewrite E. unfold p_to_node. eapply tr_call; [by apply tr_try_to_node|by rewrite app_nil_r|]. intros a b F' HF. rewrite app_nil_r. by apply tr_unwrap_kept.
Qed.
Lemma tr_ast_try_to_node kfr cast ptr s c : cin root c -> c_is_node c = true -> range_ok (ptr_range ptr) ->
  tr [own c s] (p_ast_try_to_node kfr cast ptr s) (if m then Err Panic else ast_try_to_node kfr (cast_of cast) ptr c) (kept [own c s] (Ropt (Rn n root false))).
Proof using HT Hwf.
  intros Hc Hn Hr. assert (E : (if m then Err Panic else ast_try_to_node kfr (cast_of cast) ptr c) =
    ((if m then Err Panic else try_to_node kfr ptr c) ≫= fun o => Ok (o ≫= cast_of cast))) by (by destruct m).
  rewrite E. unfold p_ast_try_to_node. eapply tr_call; [by apply tr_try_to_node|by rewrite app_nil_r|]. intros a b F' (F1&HF&HR). rewrite app_nil_r.
  unfold Ropt in HR. destruct b as [d|], a as [y|]; try done.
  - destruct HR as [[Hd ->] Hdn]. apply tr_bind_ret. simpl. unfold cast_of. eapply (tr_cast cast y d); [exact Hd|exact HF|..]; intros E'; rewrite E'.
    + eapply tr_ret; [exact HF|]. exists [own d y]. split; [done|]. by split.
    + eapply tr_ret; [reflexivity|]. by exists [].
  - subst F1. eapply tr_ret; [exact HF|]. by exists [].
Qed.
Lemma tr_ast_to_node kfr cast ptr s c : cin root c -> c_is_node c = true -> range_ok (ptr_range ptr) ->
  tr [own c s] (p_ast_to_node kfr cast ptr s) (if m then Err Panic else ast_to_node kfr (cast_of cast) ptr c) (kept [own c s] (Rn n root false)).
Proof using HT Hwf.
  intros Hc Hn Hr. assert (E : (if m then Err Panic else ast_to_node kfr (cast_of cast) ptr c) = ((if m then Err Panic else ast_try_to_node kfr (cast_of cast) ptr c) ≫= unwrap)) by (by destruct m).
  rewrite E. unfold p_ast_to_node. eapply tr_call; [by apply tr_ast_try_to_node|by rewrite app_nil_r|]. intros a b F' HF. rewrite app_nil_r. by apply tr_unwrap_kept.
Qed.
Lemma tr_find_map tok cast : forall fuel cit it F, Rkids n root tok cit it F ->
  tr F (p_find_map (p_kids_next tok) (p_cast cast) fuel it) (filter_map_next (kids_next tok) (cast_of cast) fuel cit) (stepped (Rk n root tok) (Rkids n root tok)).
Proof using HT Hwf.
  induction fuel as [|fuel IH]; intros cit it F Hit; [by apply tr_err|]. cbn [p_find_map filter_map_next].
  eapply tr_call; [by eapply tr_kids_next|by rewrite app_nil_r|]. intros [a it'] [b cit'] F' (F1&F2&HF&HR&Hit'). cbn [fst snd] in *. rewrite app_nil_r.
  pose proof HR as HR0. unfold Ropt in HR. destruct b as [b|], a as [a|]; try done.
  - destruct HR as [[Hb ->] Hk]. eapply tr_cast; [exact Hb|exact HF|..]; intros E; unfold cast_of; rewrite E.
    + eapply tr_ret; [reflexivity|]. exists [own b a], F2. split_and!; [done| |done]. exact HR0.
    + by apply IH.
  - subst F1. eapply tr_ret; [reflexivity|]. by exists [], F2.
Qed.
Lemma tr_find_first tok cast fuel s c : cin root c -> c_is_node c = true ->
  tr [own c s] (it ← p_kids_new s; '(o, it) ← p_find_map (p_kids_next tok) (p_cast cast) fuel it; _ ← p_kids_drop it; PRet o)
    ('(o, _) ← filter_map_next (kids_next tok) (cast_of cast) fuel (children_new c); Ok o) (kept [own c s] (Ropt (Rk n root tok))).
Proof using HT Hwf.
  intros Hc Hn. eapply tr_kids_new; [done|done|left|]. intros it F1 Hit. eapply tr_call; [by eapply tr_find_map|reflexivity|].
  intros [a it'] [b cit'] F' (F2&F3&HF&HR&Hit'). cbn [fst snd] in *. eapply tr_kids_drop_k; [exact Hit'|instantiate (1 := F2 ++ [own c s]); rewrite HF; psolve|].
  eapply tr_ret; [reflexivity|]. by exists F2.
Qed.
Lemma tr_ast_children cast fuel s c : cin root c -> c_is_node c = true ->
  tr [own c s] (p_ast_children cast fuel s) (collect (filter_map_next node_children_next (cast_of cast) fuel) fuel (children_new c)) (kept [own c s] (Rlist (Rk n root false))).
Proof using HT Hwf.
  intros Hc Hn. unfold p_ast_children. eapply tr_kids_new; [done|done|left|]. intros it F1 Hit.
  apply tr_bind_ret. rewrite <- (res_bind_ret (collect _ _ _)). eapply tr_call; [|reflexivity|].
  - eapply tr_collect; [intros; by apply (tr_find_map false)|apply tr_kids_drop|exact Hit].
  - intros l cl F' Hl. eapply tr_ret; [reflexivity|]. by exists F'.
Qed.
End facts.

(** ** From cursors to positions *)
(** the numbers of the children that satisfy [P] *)
(** specification *)
Definition kids_where (P : nat -> tree -> bool) (cs : list tree) : list nat :=
  List.filter (fun i => match cs !! i with Some y => P i y | None => false end) (seq 0 (length cs)).
Lemma sel_go_where (P : tree -> bool) cs : forall pre, sel_go P (length pre) cs =
  List.filter (fun i => match (pre ++ cs) !! i with Some y => P y | None => false end) (seq (length pre) (length cs)).
Proof.
  induction cs as [|c cs IH]; intros pre; simpl; [done|]. rewrite lookup_app_r, Nat.sub_diag by lia. simpl.
  specialize (IH (pre ++ [c])). rewrite app_length in IH. simpl in IH. rewrite Nat.add_1_r in IH. rewrite IH, <- app_assoc. simpl. done.
Qed.
Lemma kids_where_sel (P : tree -> bool) (Q : nat -> tree -> bool) cs : kids_where (fun i y => P y && Q i y) cs =
  List.filter (fun i => match cs !! i with Some y => Q i y | None => false end) (sel_from P cs 0).
Proof.
  unfold sel_from. rewrite drop_0. pose proof (sel_go_where P cs []) as Hg. cbn [app length] in Hg. rewrite Hg. clear Hg. cbn [app length]. unfold kids_where.
  induction (seq 0 (length cs)) as [|i l IH]; simpl; [done|]. rewrite IH. destruct (cs !! i) as [y|] eqn:E; [|done]. destruct (P y); simpl; [|done]. by rewrite E.
Qed.
Section pos.
Context (m : bool) (root : green) (Hwf : wfg root).
Lemma casts_at cast c : cin root c -> forall is l, at_children root (c_path c) is l ->
  map c_path (filter_map (cast_of m root cast) l) = map (fun i => c_path c ++ [i])
    (List.filter (fun i => match tchildren (erase (c_green c)) !! i with Some y => cast (look_at m (erase root) (c_path c ++ [i]) y) | None => false end) is).
Proof using Hwf.
  intros Hc is l H. induction H as [|i d is l Hd _ IH]; simpl; [done|].
  destruct (child_cursor root Hwf _ _ _ _ Hc Hd) as (_&Ht&_). rewrite Ht. unfold cast_of at 1. unfold look_of. destruct (cin_at _ _ _ Hd) as [_ ->].
  destruct (cast _); simpl; [|done]. rewrite IH. by destruct (cin_at _ _ _ Hd) as [_ ->].
Qed.
Lemma find_map_head {A B} (f : A -> option B) l : find_map f l = head (filter_map f l).
Proof. induction l as [|x l IH]; simpl; [done|]. by destruct (f x). Qed.
Lemma sel_from_le {A} (P : A -> bool) l : length (sel_from P l 0) <= length l.
Proof. unfold sel_from. apply sel_go_length. Qed.
Lemma kids_yields tok c : cin root c -> exists l, yields (kids_next tok) (children_new c) l /\
  at_children root (c_path c) (sel_from (pick tok) (tchildren (erase (c_green c))) 0) l /\ length l <= length (tchildren (erase (c_green c))).
Proof using Hwf.
  intros Hc. assert (exists l, yields (kids_next tok) (children_new c) l /\ at_children root (c_path c) (sel_from (pick tok) (tchildren (erase (c_green c))) 0) l) as (l&Hy&Hl).
  { destruct tok; [by apply children_with_tokens_yields|by apply children_yields]. }
  exists l. split_and!; [done|done|]. rewrite <- (Forall2_length _ _ _ Hl). apply sel_from_le.
Qed.
Lemma find_first_at tok cast c fuel : cin root c -> length (tchildren (erase (c_green c))) < fuel ->
  exists o, ('(o, _) ← filter_map_next (kids_next tok) (cast_of m root cast) fuel (children_new c); Ok o) = Ok o /\
    c_path <$> o = (fun i => c_path c ++ [i]) <$>
      head (kids_where (fun i y => pick tok y && cast (look_at m (erase root) (c_path c ++ [i]) y)) (tchildren (erase (c_green c)))).
Proof using Hwf.
  intros Hc Hf. destruct (kids_yields tok c Hc) as (l&Hy&Hl&Hlen).
  destruct (filter_map_next_yields (kids_next tok) (cast_of m root cast) (children_new c) l fuel (fun _ => True)) as (s'&l'&H1&_); [done|done|done|lia|].
  rewrite H1. cbn [mbind res_bind]. eexists. split; [done|]. rewrite kids_where_sel, find_map_head. pose proof (casts_at cast c Hc _ _ Hl) as E.
  destruct (filter_map _ l) as [|d ds], (List.filter _ _) as [|i is]; simpl in *; try done. by injection E as -> _.
Qed.
Lemma filter_map_yields {S A B} (next : Cursor.iter S A) (f : A -> option B) fuel s l :
  yields next s l -> length l < fuel -> yields (filter_map_next next f fuel) s (filter_map f l).
Proof.
  remember (length l) as k eqn:Hk. revert s l Hk. induction (lt_wf k) as [k _ IH]; intros s l -> Hy Hl.
  destruct (filter_map_next_yields next f s l fuel (fun _ => True)) as (s'&l'&H1&H2&_&H4&H5&H6&H7); [done|done|done|lia|].
  rewrite H4. destruct (find_map f l) as [b|] eqn:E.
  - eapply yields_cons; [exact H1|]. apply (IH (length l')); [by apply H7|done|done|lia].
  - destruct (H5 eq_refl) as [H8 ->]. apply (yields_nil _ s s'); [exact H1|]. destruct fuel; [lia|]. simpl. by rewrite H8.
Qed.
Lemma collect_casts cast c fuel : cin root c -> length (tchildren (erase (c_green c))) < fuel ->
  exists l, collect (filter_map_next node_children_next (cast_of m root cast) fuel) fuel (children_new c) = Ok l /\
    map c_path l = map (fun i => c_path c ++ [i])
      (kids_where (fun i y => is_node y && cast (look_at m (erase root) (c_path c ++ [i]) y)) (tchildren (erase (c_green c)))).
Proof using Hwf.
  intros Hc Hf. destruct (kids_yields false c Hc) as (l&Hy&Hl&Hlen). exists (filter_map (cast_of m root cast) l). split.
  - eapply yields_collect; [apply filter_map_yields; [exact Hy|lia]|]. pose proof (filter_map_length (cast_of m root cast) l). lia.
  - rewrite kids_where_sel. by apply casts_at.
Qed.
End pos.
Lemma Rn_got_opt n root o a F q : Ropt (Rn n root false) o a F -> c_path <$> o = q -> got_opt n q a F.
Proof. intros H <-. unfold Ropt, got_opt in *. destruct o, a; simpl; try done. by destruct H as [[_ ->] _]. Qed.
Lemma resolves_once root (Hwf : wfg root) (K : kind -> Prop) a e p o : range_ok (TR a e) ->
  search_path (erase root) a e p -> located (erase root) K a e p -> (forall q, proper_ancestor q p -> ~ located (erase root) K a e q) ->
  match o with
  | Some q => search_path (erase root) a e q /\ located (erase root) K a e q /\ forall q', proper_ancestor q' q -> ~ located (erase root) K a e q'
  | None => forall q, search_path (erase root) a e q -> ~ located (erase root) K a e q
  end -> o = Some p.
Proof.
  intros Hok Hsp Hl Hno Hres. destruct o as [q|]; [|by apply Hres in Hsp]. destruct Hres as (Hs&Hlq&Hmin). f_equal.
  assert (Hcmp : ancestor_or_self q p \/ ancestor_or_self p q).
  { destruct (pos_cases q p) as [?|[?|(r&i&j&p1&q1&Hq'&Hp'&Hij)]]; [by left|by right|]. exfalso. apply Hij.
    rewrite Hq' in Hs, Hlq. rewrite Hp' in Hsp.
    replace (r ++ i :: p1) with ((r ++ [i]) ++ p1) in Hs by (by rewrite <- app_assoc).
    replace (r ++ j :: q1) with ((r ++ [j]) ++ q1) in Hsp by (by rewrite <- app_assoc).
    apply search_path_prefix, search_path_snoc_inv in Hs as (_&Hs&_).
    apply search_path_prefix, search_path_snoc_inv in Hsp as (_&Hsp&_).
    destruct (cursor_at_is_Some root (r ++ i :: p1)) as [d Hd]; [destruct Hlq as [_ (y&Hy&_)]; by eexists|].
    destruct (cursor_at_prefix _ _ _ _ Hd) as [x Hx].
    by apply (descends_unique root Hwf r x a e i j Hx Hok). }
  destruct Hcmp as [[r Hr]|[r Hr]]; destruct r as [|i r]; [by rewrite app_nil_r in Hr| |by rewrite app_nil_r in Hr|].
  - exfalso. apply (Hno q); [by exists i, r|done].
  - exfalso. apply (Hmin p); [by exists i, r|done].
Qed.

(** ** Programs that make new trees or green elements *)
(** run on the heap after [prog], [p] returns some [a]; the calls it has made lead to [st'] *)
(** specification *)
Definition reaches (env : henv) (prog : list op) {A} (p : script A) (Q : A -> sst -> Prop) : Prop :=
  exists hs h os ops st' hs' h' os' a,
    client env prog = (Ok (hs, os), h) /\ hexec env p hs h = (Ok (hs', a), h') /\
    client env (prog ++ ops) = (Ok (hs', os ++ os'), h') /\ s_run (prog ++ ops) s_init = SOk (st', os ++ os') /\ Q a st'.
Section reaches.
Context (env : henv) (Henv : henv_ok env) (prog : list op) (st : sst) (os : list obs) (Hrun : s_run prog s_init = SOk (st, os)).
Lemma reaches_swp {A} (p : script A) Q : swp p (fun _ _ => False) Q st -> reaches env prog p Q.
Proof using Henv Hrun.
  intros Hp. destruct (reach env Henv _ _ _ Hrun) as (hs&h&Hcl&Hsim&_).
  destruct (hexec_sound env Henv p _ _ st hs h Hsim Hp) as (ops&st'&hs'&h'&(os'&Hr1&Hr2)&Hsim'&He).
  destruct (hexec env p hs h) as [[[hs'' a]|e] h''] eqn:Ex; [|by destruct He]. destruct He as (->&->&HQ).
  exists hs, h, os, ops, st', hs', h', os', a. split_and!; try done.
  - by eapply client_app.
  - rewrite s_run_app, Hrun. simpl. by rewrite Hr1.
Qed.
Lemma panics_swp {A} (p : script A) : swp p (fun e _ => e = Panic) (fun _ _ => False) st -> panics env prog p.
Proof using Henv Hrun.
  intros Hp. destruct (reach env Henv _ _ _ Hrun) as (hs&h&Hcl&Hsim&_).
  destruct (hexec_sound env Henv p _ _ st hs h Hsim Hp) as (ops&st'&hs'&h'&_&_&He).
  destruct (hexec env p hs h) as [[[hs'' a]|e] h''] eqn:Ex; [by destruct He as (_&_&?)|]. destruct He as [_ ->].
  by exists hs, h, os, h''.
Qed.
End reaches.
Lemma swp_cast (cast : look -> bool) c st n p m t x {A} (k : option nat -> script A) E Q : s_handles st !! c = Some (Some (@pair nat pos n p)) ->
  s_trees st !! n = Some (m, t) -> tsub t p = Some x ->
  (if cast (look_at m t p x) then swp (k (Some c)) E Q st else swp (k None) E Q (del_handle c st)) -> swp (p_cast cast c ≫= k) E Q st.
Proof.
  intros Hs Ht Hx Hk. unfold p_cast. apply swp_assoc, swp_bind. unfold p_look. cbn [swp s_step]. rewrite Hs. cbn [of_slot mbind sres_bind].
  rewrite (s_look_at _ _ _ _ _ _ Ht Hx). cbn [mbind sres_bind swp s_ans an_obs]. destruct (cast (look_at m t p x)); [done|].
  apply swp_assoc, swp_bind. unfold p_drop. cbn [swp s_step]. rewrite Hs. cbn [of_slot mbind sres_bind swp]. done.
Qed.
Lemma head_map {A B} (f : A -> B) l : head (map f l) = f <$> head l.
Proof. by destruct l. Qed.
(** [clone_for_update] and [clone_subtree]: the new tree, and the handle into it *)
(** specification *)
Definition copy_of (update : bool) (t : tree) (p : pos) (x : tree) : bool * tree * pos := if update then (true, t, p) else (false, x, []).
Lemma swp_copy (update : bool) st s n p m t x {A} (k : nat -> script A) E Q : s_handles st !! s = Some (Some (@pair nat pos n p)) ->
  s_trees st !! n = Some (m, t) -> tsub t p = Some x -> is_node x = true ->
  (if update && m then E Panic st
   else let '(m', t', p') := copy_of update t p x in
        swp (k (length (s_handles st))) E Q (add_handle (Some (length (s_trees st), p')) (add_tree m' t' st))) ->
  swp (POp (if update then OCloneForUpdate s else OCloneSubtree s) p_slot ≫= k) E Q st.
Proof.
  intros Hs Ht Hx Hn Hk. change (swp (POp (if update then OCloneForUpdate s else OCloneSubtree s) (fun x => p_slot x ≫= k)) E Q st).
  assert (Hf : forall o m' t', filled (s_handles st) (s_handles (add_handle o (add_tree m' t' st))) = (fun _ => length (s_handles st)) <$> o).
  { intros o m' t'. apply (filled_add (add_tree m' t' st)). }
  destruct update; cbn [swp s_step]; rewrite Hs; cbn [of_slot mbind sres_bind]; unfold s_elem; cbn [fst snd]; rewrite Ht, Hx; cbn [mbind sres_bind];
    rewrite Hn; change (ill_unless true) with (SOk ()); cbn [mbind sres_bind].
  - destruct m; cbn [negb panic_unless mbind sres_bind]; [exact Hk|]. unfold p_slot. cbn [s_ans an_slot]. rewrite Hf. exact Hk.
  - unfold p_slot. cbn [s_ans an_slot]. rewrite Hf. exact Hk.
Qed.
Lemma held_new st m t h : held (add_handle (Some h) (add_tree m t st)) ≡ₚ (length (s_handles st), h) :: held st.
Proof. rewrite held_add. done. Qed.
Lemma kids_where_ext (P Q : nat -> tree -> bool) cs : (forall i y, P i y = Q i y) -> kids_where P cs = kids_where Q cs.
Proof. intros H. unfold kids_where. apply List.filter_ext. intros i. by destruct (cs !! i). Qed.
