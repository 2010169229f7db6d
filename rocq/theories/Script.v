(** * Programs that choose their calls by what they see

    The programs of Client.v are lists of calls.  Here a program sees the answer of each
    call before it makes the next one: this is how the compound methods of cursor.rs
    (iterators, searches) and their callers are written. *)
From Verif Require Export HeapClient.

(** what a call answers: the new handle and the new green element if there is one, and
    what it shows *)
(** what a call returns to the program *)
Record ans := Ans { an_slot : option nat; an_green : option nat; an_obs : obs }.
(** a program of the crate or of a client on top of the calls of Client.v *)
Inductive script (A : Type) :=
| PRet (a : A)
| PPanic
| PDiverge                                            (* out of fuel *)
| POp (o : op) (k : ans -> script A)                  (* one call of Client.v *)
| PEq (a b : nat) (k : bool -> script A).             (* PartialEq on two handles *)
Arguments PRet {A}. Arguments PPanic {A}. Arguments PDiverge {A}. Arguments POp {A}. Arguments PEq {A}.
(** sequencing; no counterpart in the code *)
Fixpoint script_bind {A B} (f : A -> script B) (p : script A) : script B :=
  match p with
  | PRet a => f a
  | PPanic => PPanic
  | PDiverge => PDiverge
  | POp o k => POp o (fun x => script_bind f (k x))
  | PEq a b k => PEq a b (fun r => script_bind f (k r))
  end.
(** helper: the monad *)
#[global] Instance script_mbind : MBind script := fun A B f p => script_bind f p.
(** helper: the monad *)
#[global] Instance script_mret : MRet script := fun A a => PRet a.

(** the slot that the call filled at the end of the list *)
(** helper: which variable the last call has filled *)
Definition filled {X} (l l' : list (option X)) : option nat :=
  match l' !! length l with Some (Some _) => Some (length l) | _ => None end.

(** ** On the heap *)
(** helper: which variable the last call has filled *)
Definition h_ans (hs hs' : hst) (x : obs) : ans := Ans (filled (h_handles hs) (h_handles hs')) (filled (h_greens hs) (h_greens hs')) x.
(** running a program on the node heap *)
Fixpoint hexec {bld : build} (env : henv) {A} (p : script A) (hs : hst) : hm (hst * A) :=
  match p with
  | PRet a => mret (hs, a)
  | PPanic => hpanic
  | PDiverge => lift (Err Diverge)
  | POp o k => '(hs', x) ← hstep env o hs; hexec env (k (h_ans hs hs' x)) hs'
  | PEq a b k =>
      x ← h_slot (h_handles hs !! a);
      y ← h_slot (h_handles hs !! b);
      r ← h_eq x y;
      hexec env (k r) hs
  end.

(** ** On trees and positions *)
(** specification: running a program on the states of Client.v *)
Definition s_ans (st st' : sst) (x : obs) : ans := Ans (filled (s_handles st) (s_handles st')) (filled (s_greens st) (s_greens st')) x.
(** what [==] on two handles may answer: [true] on two handles of one element; if it says
    [true] the two elements look alike and have the same range *)
(** specification: running a program on the states of Client.v *)
Definition eq_allowed (ha hb : nat * pos) (la lb : look) (r : bool) : Prop :=
  (ha = hb -> r = true) /\ (r = true -> l_tree la = l_tree lb /\ l_range la = l_range lb).
(** [swp p E Q st]: from [st] the program makes only well-typed calls; if it returns [a] in
    [st'] then [Q a st']; if it stops with an error then [E] *)
(** specification: running a program on the states of Client.v *)
Fixpoint swp {A} (p : script A) (E : err -> sst -> Prop) (Q : A -> sst -> Prop) (st : sst) : Prop :=
  match p with
  | PRet a => Q a st
  | PPanic => E Panic st
  | PDiverge => E Diverge st
  | POp o k =>
      match s_step o st with
      | SOk (st', x) => swp (k (s_ans st st' x)) E Q st'
      | SPanic => E Panic st
      | SStuck => E Panic st /\ E Diverge st
      | SIll => False
      end
  | PEq a b k =>
      exists ha hb la lb, s_handles st !! a = Some (Some ha) /\ s_handles st !! b = Some (Some hb) /\
        s_look st ha = SOk la /\ s_look st hb = SOk lb /\
        forall r, eq_allowed ha hb la lb r -> swp (k r) E Q st
  end.

Lemma filled_map {X Y Z} (f : X -> Y) (g : X -> Z) (l l' : list (option X)) :
  filled (map (fmap f) l) (map (fmap f) l') = filled (map (fmap g) l) (map (fmap g) l').
Proof.
  unfold filled. rewrite !map_length. rewrite (list_lookup_fmap (fmap f)), (list_lookup_fmap (fmap g)). by destruct (l' !! length l) as [[]|].
Qed.
Lemma ans_sim st hs h st' hs' h' x : simulates st hs h -> simulates st' hs' h' -> h_ans hs hs' x = s_ans st st' x.
Proof.
  intros (zs&lk&H1) (zs'&lk'&H2). unfold h_ans, s_ans. f_equal.
  - rewrite (sm_handles _ _ _ _ _ _ H1), (sm_handles _ _ _ _ _ _ H2), (sm_pos _ _ _ _ _ _ H1), (sm_pos _ _ _ _ _ _ H2). apply filled_map.
  - rewrite (sm_greens _ _ _ _ _ _ H1), (sm_greens _ _ _ _ _ _ H2).
    transitivity (filled (map (fmap (fun g : green => g)) (h_greens hs)) (map (fmap (fun g : green => g)) (h_greens hs'))); [|apply filled_map].
    assert (E : forall l : list (option green), map (fmap (fun g : green => g)) l = l). { intros l. transitivity (map (fun o => o) l); [|apply map_id]. apply map_ext. by intros []. }
    by rewrite !E.
Qed.

Section sound.
Context (env : henv) (Henv : henv_ok env).
(** the calls [ops] were made: [st] to [st'] and at the same time [hs], [h] to [hs'], [h'] *)
(** specification: running a program on the states of Client.v *)
Definition calls (ops : list op) (st : sst) (hs : hst) (h : heap) (st' : sst) (hs' : hst) (h' : heap) : Prop :=
  exists os, s_run ops st = SOk (st', os) /\ hrun env ops hs h = (Ok (hs', os), h').
Lemma calls_nil st hs h : calls [] st hs h st hs h.
Proof. by exists []. Qed.
Lemma calls_cons o ops st hs h st1 x hs1 h1 st' hs' h' : s_step o st = SOk (st1, x) -> hstep env o hs h = (Ok (hs1, x), h1) ->
  calls ops st1 hs1 h1 st' hs' h' -> calls (o :: ops) st hs h st' hs' h'.
Proof.
  intros H1 H2 (os&H3&H4). exists (x :: os). split; [simpl; by rewrite H1; simpl; rewrite H3|].
  cbn [hrun]. unfold mret, hm_ret, mbind, hm_bind. by rewrite H2, H4.
Qed.
Lemma hexec_sound {A} (p : script A) E Q : forall st hs h, simulates st hs h -> swp p E Q st ->
  exists ops st' hs' h', calls ops st hs h st' hs' h' /\ simulates st' hs' h' /\
    match hexec env p hs h with
    | (Ok (hs'', a), h'') => hs'' = hs' /\ h'' = h' /\ Q a st'
    | (Err e, _) => e <> UB /\ E e st'
    end.
Proof using Henv.
  induction p as [a| | |o k IH|a b k IH]; intros st hs h Hsim Hp; cbn [swp hexec] in *.
  - exists [], st, hs, h. split; [apply calls_nil|]. by split.
  - exists [], st, hs, h. split; [apply calls_nil|]. by split.
  - exists [], st, hs, h. split; [apply calls_nil|]. by split.
  - pose proof (sim_step env Henv o st hs h Hsim) as Hm. unfold meets in Hm. unfold mbind, hm_bind. destruct (s_step o st) as [[st1 x]| | |] eqn:Eo; [|..|done].
    + apply wp_ok in Hm as ([hs1 x1]&h1&E1&Ex&Hs1). simpl in Ex, Hs1. subst x1. rewrite E1.
      rewrite (ans_sim _ _ _ _ _ _ x Hsim Hs1). destruct (IH _ _ _ _ Hs1 Hp) as (ops&st'&hs'&h'&Hc&Hs'&Hr).
      exists (o :: ops), st', hs', h'. split; [by eapply calls_cons|]. split; [done|]. exact Hr.
    + exists [], st, hs, h. split; [apply calls_nil|]. split; [done|]. destruct (hstep env o hs h) as [[[? ?]|e] h1]; simpl in Hm; [done|]. by injection Hm as ->.
    + exists [], st, hs, h. split; [apply calls_nil|]. split; [done|]. destruct (hstep env o hs h) as [[[? ?]|e] h1]; simpl in Hm; [by destruct Hm|].
      destruct Hp. by destruct Hm as [Hm|Hm]; injection Hm as ->.
  - destruct Hp as (ha&hb&la&lb&Ha&Hb&Hla&Hlb&Hk). pose proof Hsim as (zs&lk&Hz).
    destruct (sim_slot _ _ _ _ _ _ _ _ Hz Ha) as (za&_&->&Hxa&Hia). destruct (sim_slot _ _ _ _ _ _ _ _ Hz Hb) as (zb&_&->&Hxb&Hib). rewrite Hxa, Hxb.
    unfold s_look in Hla, Hlb. destruct (s_trees st !! za.2.1) as [[ma ta]|] eqn:Ta; [|done]. destruct (s_trees st !! zb.2.1) as [[mb tb]|] eqn:Tb; [|done].
    destruct (tsub ta za.2.2) as [xa|] eqn:Xa; [|done]. destruct (trange ta za.2.2) as [ra|] eqn:Ra; [|done]. injection Hla as <-.
    destruct (tsub tb zb.2.2) as [xb|] eqn:Xb; [|done]. destruct (trange tb zb.2.2) as [rb|] eqn:Rb; [|done]. injection Hlb as <-.
    pose proof (sm_sim _ _ _ _ _ _ Hz) as HS. cbn [app] in *.
    pose proof (sim_eq _ _ _ _ _ _ _ _ _ _ _ _ _ _ HS Hia Hib Ta Xa Ra Tb Xb Rb) as He. apply wp_ok in He as (r&h1&E1&->&Hr1&Hr2).
    destruct (IH r st hs h Hsim) as (ops&st'&hs'&h'&Hc&Hs'&Hr); [by apply Hk|]. exists ops, st', hs', h'. split; [done|]. split; [done|].
    unfold h_slot, mret, hm_ret, mbind, hm_bind. by rewrite E1.
Qed.
End sound.

(** ** Reasoning about programs *)
Lemma swp_mono {A} (p : script A) (E E' : err -> sst -> Prop) (Q Q' : A -> sst -> Prop) st :
  swp p E Q st -> (forall e st', E e st' -> E' e st') -> (forall a st', Q a st' -> Q' a st') -> swp p E' Q' st.
Proof.
  intros Hp HE HQ. revert st Hp. induction p as [a| | |o k IH|a b k IH]; intros st Hp; cbn [swp] in *; auto.
  - destruct (s_step o st) as [[st' x]| | |]; auto. destruct Hp. auto.
  - destruct Hp as (ha&hb&la&lb&H1&H2&H3&H4&H5). exists ha, hb, la, lb. split_and!; auto.
Qed.
Lemma swp_bind {A B} (p : script A) (f : A -> script B) E Q st : swp p E (fun a => swp (f a) E Q) st -> swp (p ≫= f) E Q st.
Proof.
  revert st. induction p as [a| | |o k IH|a b k IH]; intros st Hp; try exact Hp.
  - change (swp (POp o (fun x => k x ≫= f)) E Q st). cbn [swp] in *. destruct (s_step o st) as [[st' x]| | |]; auto.
  - change (swp (PEq a b (fun x => k x ≫= f)) E Q st). cbn [swp] in *.
    destruct Hp as (ha&hb&la&lb&H1&H2&H3&H4&H5). exists ha, hb, la, lb. split_and!; auto.
Qed.
