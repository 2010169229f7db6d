(** * Clients that catch panics

    A client may catch a panic ([catch_unwind]) and go on.  The call that panicked has no
    result; the handles that were moved into it are dropped by the unwinding.  This file has
    such clients on the node heap and shows for which panics they are as good as clients that
    never made the call. *)
From Verif Require Export Replace.
Local Open Scope nat_scope.

(** specification of a client that catches panics *)
Definition imm_handle (st : sst) (c : nat) : bool :=
  match s_handles st !! c with
  | Some (Some h) => match s_trees st !! h.1 with Some (m, _) => negb m | None => false end
  | _ => false
  end.
(** before and from the first handle into an immutable tree *)
(** specification of a client that catches panics *)
Fixpoint split_imm (st : sst) (ins : list nat) : option (list nat * list nat) :=
  match ins with
  | [] => None
  | c :: ins' => if imm_handle st c then Some ([], ins) else (fun x => (c :: x.1, x.2)) <$> split_imm st ins'
  end.
(** What is left of a call that panics: [Some ops] if the panic leaves what the calls [ops]
    leave.  These are the assertions cursor.rs:581 ([clone_for_update] of a mutable tree), 961
    ([detach] in an immutable tree), 942 ([splice_children] in one), 966-967 (inserting an
    element of one: what has been inserted before it stays), the subtraction cursor.rs:931 (a
    range that starts before the node), [Vec::splice] with a bad range (node.rs:181-187) and
    an [unwrap] of the client.
    The messages of 942 and 961 format the node; that this allocates and frees again is C60.
    Not among them: inserting past the end or past [u32::MAX], see c40_catching_refuted; a
    constructor that finds its text too long leaks the children it has already written
    (arc.rs:364-368).  ([NoDup]: a handle cannot be moved twice.) *)
Definition residue (o : op) (st : sst) : option (list op) :=
  match o with
  | OCloneForUpdate _ | ODetach _ | OAtRange _ _ _ | OGreenChild _ _ => Some []
  | OSplice s a b ins =>
      if bool_decide (NoDup ins) then
        if imm_handle st s then Some (map ODrop ins)
        else (fun x => OSplice s a b x.1 :: map ODrop x.2) <$> split_imm st ins
      else None
  | OGreenSplice a b _ g =>
      match s_greens st !! g with
      | Some (Some t) => if (a <=? b) && (b <=? length (tchildren t)) then None else Some []
      | _ => None
      end
  | _ => None
  end.

(** ** Specification *)
(** specification: a call whose panic is caught *)
Definition s_stepc (o : op) (st : sst) : sres (sst * obs) :=
  match s_step o st with
  | SPanic => match residue o st with
              | Some ops => match s_run ops st with SOk (st', _) => SOk (st', None) | _ => SPanic end
              | None => SPanic
              end
  | r => r
  end.
(** specification of a client that catches panics *)
Fixpoint s_runc (prog : list op) (st : sst) : sres (sst * list obs) :=
  match prog with
  | [] => SOk (st, [])
  | o :: prog' => '(st, x) ← s_stepc o st; '(st, xs) ← s_runc prog' st; SOk (st, x :: xs)
  end.
(** the program with what is left of the calls that panic *)
(** specification of a client that catches panics *)
Fixpoint without_panics (prog : list op) (st : sst) : list op :=
  match prog with
  | [] => []
  | o :: prog' =>
      (match s_step o st with SOk _ => [o] | _ => default [] (residue o st) end) ++
      match s_stepc o st with SOk (st', _) => without_panics prog' st' | _ => [] end
  end.

(** ** On the heap *)
(** the drops of the unwinding *)
(** unwinding: the handles moved into the call are dropped (std) *)
Fixpoint h_unwind (l : list nat) (hs : hst) : hm (hst * obs) :=
  match l with
  | [] => mret (hs, None)
  | c :: l' => x ← h_slot (h_handles hs !! c); _ ← h_drop x; h_unwind l' (hdel c hs)
  end.
(** how many of the elements the loop in [splice_children] had inserted when it panicked: as
    it takes them one by one, the most with which the call returns *)
(** helper: how many handles of [to_insert] cursor.rs:954-957 has taken when it panics *)
Fixpoint h_taken (env : henv) (s a b : nat) (ins : list nat) (hs : hst) (h : heap) (k : nat) : nat :=
  match k with
  | 0 => 0
  | S k' => match (hstep env (OSplice s a b (take k ins)) hs h).1 with Ok _ => k | Err _ => h_taken env s a b ins hs h k' end
  end.
(** [catch_unwind] (std) around one call of HeapProg.v *)
Definition hstepc (env : henv) (o : op) (hs : hst) : hm (hst * obs) := fun h =>
  match hstep env o hs h with
  | (Err Panic, h') =>
      match o with
      | OSplice s a b ins =>
          let k := h_taken env s a b ins hs h (length ins) in
          h_unwind (drop k ins) (foldl (fun hs c => hdel c hs) hs (take k ins)) h'
      | _ => (Ok (hs, None), h')
      end
  | r => r
  end.
(** a client that wraps every call in [catch_unwind] *)
Fixpoint hrunc (env : henv) (prog : list op) (hs : hst) : hm (hst * list obs) :=
  match prog with
  | [] => mret (hs, [])
  | o :: prog' => '(hs, x) ← hstepc env o hs; '(hs, xs) ← hrunc env prog' hs; mret (hs, x :: xs)
  end.

(** ** Panics that change nothing *)
(** [m] leaves the heap as it is; it does so if it fails *)
(** proof device, no counterpart in the code *)
Definition reads {A} (m : hm A) : Prop := forall h, (m h).2 = h.
(** proof device, no counterpart in the code *)
Definition fails_clean {A} (m : hm A) : Prop := forall h e h', m h = (Err e, h') -> h' = h.
Lemma reads_ret {A} (a : A) : reads (mret a).
Proof. done. Qed.
Lemma reads_lift {A} (r : res A) : reads (lift r).
Proof. intros h. by destruct r. Qed.
Lemma reads_assert b : reads (hassert b).
Proof. intros h. by destruct b. Qed.
Lemma reads_bind {A B} (m : hm A) (f : A -> hm B) : reads m -> (forall a, reads (f a)) -> reads (m ≫= f).
Proof. intros H1 H2 h. unfold mbind, hm_bind. specialize (H1 h). destruct (m h) as [[a|e] h1]; simpl in *; subst h1; [apply H2|done]. Qed.
Lemma reads_get p : reads (h_get p).
Proof. intros h. unfold h_get. by destruct (hn h !! p). Qed.
Lemma reads_green p : reads (h_green p).
Proof. intros h. unfold h_green. destruct (hn h !! p); [|done]. by destruct (g_live h _). Qed.
Lemma reads_size : reads h_size.
Proof. done. Qed.
Lemma reads_slot {A} (o : option (option A)) : reads (h_slot o).
Proof. intros h. by destruct o as [[]|]. Qed.
Lemma reads_green_read g : reads (h_green_read g).
Proof. intros h. unfold h_green_read. by destruct (g_live h g). Qed.
Lemma reads_offset p : reads (h_offset p).
Proof.
  apply reads_bind; [apply reads_get|]. intros n. destruct (n_mut n); [|apply reads_ret]. apply reads_bind; [apply reads_size|]. intros fuel.
  generalize 0%N as acc. revert p. induction fuel as [|fuel IH]; intros p acc; cbn [h_offset_mut_loop]; [apply reads_lift|].
  apply reads_bind; [apply reads_get|]. intros n'. destruct (n_par n') as [q|]; [|apply reads_ret].
  apply reads_bind; [apply reads_green|]. intros g. apply reads_bind; [apply reads_assert|]. intros _. apply reads_bind; [apply reads_lift|]. intros c.
  apply reads_bind; [apply reads_lift|]. intros acc'. apply IH.
Qed.
Lemma clean_reads {A} (m : hm A) : reads m -> fails_clean m.
Proof. intros H h e h' E. specialize (H h). rewrite E in H. done. Qed.
Lemma clean_bind {A B} (m : hm A) (f : A -> hm B) : reads m -> (forall a, fails_clean (f a)) -> fails_clean (m ≫= f).
Proof.
  intros H1 H2 h e h' E. unfold mbind, hm_bind in E. specialize (H1 h). destruct (m h) as [[a|e'] h1]; simpl in *; subst h1; [by eapply H2|]. by injection E as _ <-.
Qed.
Lemma clean_build env f : fails_clean (h_green_build env f None).
Proof. intros [n o c] e h'. unfold h_green_build. simpl. destruct (f _) as [g|e']; [done|]. by intros [= _ <-]. Qed.
Lemma clean_then_ok {A B} (m : hm A) (f : A -> B) : fails_clean m -> fails_clean (x ← m; mret (f x)).
Proof. intros H h e h'. unfold mbind, hm_bind, mret, hm_ret. destruct (m h) as [[a|e'] h1] eqn:E; [done|]. intros [= _ <-]. by eapply H. Qed.

Section catch.
Context (env : henv) (Henv : henv_ok env).
Lemma handle_mut st hs h s n p m t : simulates st hs h -> s_handles st !! s = Some (Some (@pair nat pos n p)) -> s_trees st !! n = Some (m, t) ->
  exists x nd, h_handles hs !! s = Some (Some x) /\ hn h !! x = Some nd /\ n_mut nd = m.
Proof using.
  intros (zs&lk&Hsim) Hs Ht. destruct (sim_slot _ _ _ _ _ _ _ _ Hsim Hs) as ([x [n' p']]&_&E&Hx&Hin). simpl in E. injection E as <- <-.
  pose proof (sm_sim _ _ _ _ _ _ Hsim) as [_ [H1 _]]. destruct (H1 _ Hin) as (r&m'&_&HT&Hm). simpl in HT, Hm, Hx. rewrite Ht in HT. injection HT as <- _.
  rewrite P_pc in Hm. destruct (hn h !! x) as [nd|] eqn:E; [|done]. simpl in Hm. injection Hm as Hm. eauto.
Qed.
Lemma at_range_before h T Z G (z : hpos) m t o e a b :
  simH h T Z G -> z ∈ Z -> T !! z.2.1 = Some (m, t) -> trange t z.2.2 = Some (o, e) -> (a < o)%N ->
  h_child_or_token_at_range env z.1 (TR a b) h = (Err Panic, h).
Proof using.
  intros HS Hz HT Hr Hab. destruct (simH_alive _ _ _ _ _ HS Hz) as (r&m'&cz&Hl&HT'&Hcz&Hm&Hsub). rewrite HT in HT'. injection HT' as <- ->.
  pose proof HS as [Hi HZ]. pose proof Hi as (K&R&Hs&Ho&_). destruct (inv_loc_tree _ _ _ _ _ _ Hi Hl) as (cur&cz'&Hc&Hcz'&Hg&Hw&Hv).
  assert (cz' = cz) as -> by congruence. rewrite (crange_trange _ Hw _ _ Hc) in Hr. unfold crange in Hr. injection Hr as Ho' _.
  assert (Hoff : wp (h_offset z.1) (fun x h' => x = o /\ h' = h) h) by (eapply wp_offset; [done|done|exact Hv|]; by rewrite Ho').
  apply wp_ok in Hoff as (?&?&E&->&->). unfold h_child_or_token_at_range, mbind, hm_bind. rewrite E. unfold lift, range_sub. simpl.
  by rewrite (proj2 (N.leb_gt _ _) Hab).
Qed.
(** ** What a panic leaves *)
Lemma imm_handle_true st c : imm_handle st c = true -> exists n p t, s_handles st !! c = Some (Some (@pair nat pos n p)) /\ s_trees st !! n = Some (false, t).
Proof using.
  unfold imm_handle. destruct (s_handles st !! c) as [[[n p]|]|]; [|done|done]. simpl. destruct (s_trees st !! n) as [[[] t]|] eqn:E; try done. intros _. by exists n, p, t.
Qed.
Lemma split_imm_some st ins pre rest : split_imm st ins = Some (pre, rest) -> ins = pre ++ rest /\ exists c post, rest = c :: post /\ imm_handle st c = true.
Proof using.
  revert pre rest. induction ins as [|d ins IH]; intros pre rest; simpl; [done|]. destruct (imm_handle st d) eqn:Ed.
  - intros [= <- <-]. split; [done|]. by exists d, ins.
  - destruct (split_imm st ins) as [[pre' rest']|]; simpl; [|done]. intros [= <- <-]. destruct (IH _ _ eq_refl) as [-> ?]. done.
Qed.
Lemma splice_full s a b ins st : s_step (OSplice s a b ins) st <> SIll -> full st s /\ Forall (full st) ins.
Proof using.
  simpl. unfold s_splice. intros Ho. destruct (s_handles st !! s) as [[[n p]|]|] eqn:Hs; simpl in Ho; [|done|done]. split; [by eexists|].
  unfold s_elem in Ho. simpl in Ho. destruct (s_trees st !! n) as [[m t]|] eqn:Ht; simpl in Ho; [|done]. destruct (tsub t p) as [x|]; simpl in Ho; [|done].
  destruct (is_node x && _) eqn:Ei; simpl in Ho; [|done]. apply andb_prop in Ei as [_ Ei]. rewrite forallb_forall in Ei. apply Forall_forall. intros c Hc%elem_of_list_In.
  specialize (Ei c Hc). apply bool_decide_eq_true in Ei. unfold full. destruct (s_handles st !! c) as [[hc|]|]; simpl in Ei; [by eexists|by destruct Ei|by destruct Ei].
Qed.
Lemma unwind_drops l : forall st st' hs h os', simulates st hs h -> s_run (map ODrop l) st = SOk (st', os') ->
  exists hs' h', h_unwind l hs h = (Ok (hs', None), h') /\ hrun env (map ODrop l) hs h = (Ok (hs', os'), h').
Proof using Henv.
  induction l as [|c l IH]; intros st st' hs h os' Hsim Hr; [injection Hr as <- <-; by exists hs, h|].
  cbn [map s_run] in Hr. apply bind_ok in Hr as ([st1 x]&Hst&Hr). apply bind_ok in Hr as ([st2 xs]&Hr&E). injection E as <- <-.
  pose proof (sim_step env Henv (ODrop c) st hs h Hsim) as Hm. rewrite Hst in Hm. apply wp_ok in Hm as ([hs1 x']&h1&E1&Ex&Hsim1). simpl in Ex, Hsim1. subst x'.
  destruct (IH _ _ _ _ _ Hsim1 Hr) as (hs'&h'&H1&H2). exists hs', h'. split.
  - cbn [h_unwind]. cbn [hstep] in E1. unfold mbind, hm_bind, mret, hm_ret in E1 |- *. destruct (h_slot _ h) as [[y|e] h2]; [|done].
    destruct (h_drop y h2) as [[u|e] h3]; [|done]. injection E1 as <- _ <-. exact H1.
  - cbn [map hrun]. unfold mbind, hm_bind, mret, hm_ret in *. rewrite E1. rewrite H2. done.
Qed.
Lemma h_taken_none s a b ins hs h k : (forall j, 0 < j -> j <= k -> exists e, (hstep env (OSplice s a b (take j ins)) hs h).1 = Err e) -> h_taken env s a b ins hs h k = 0.
Proof using.
  induction k as [|k IH]; intros H; [done|]. cbn [h_taken]. destruct (H (S k)) as [e ->]; [lia|lia|]. apply IH. intros j Hj1 Hj2. apply H; lia.
Qed.
Lemma h_taken_some s a b ins hs h n k : n <= k -> (forall j, n < j -> j <= k -> exists e, (hstep env (OSplice s a b (take j ins)) hs h).1 = Err e) ->
  (exists x, (hstep env (OSplice s a b (take n ins)) hs h).1 = Ok x) -> h_taken env s a b ins hs h k = n.
Proof using.
  induction k as [|k IH]; intros Hn H Hok; [by assert (n = 0) as -> by lia|]. cbn [h_taken]. destruct (decide (n = S k)) as [<-|Hne].
  - destruct Hok as [x ->]. done.
  - destruct (H (S k)) as [e ->]; [lia|lia|]. apply IH; [lia| |done]. intros j Hj1 Hj2. apply H; lia.
Qed.
Lemma h_attach_all_app x i l1 l2 h : h_attach_all env x i (l1 ++ l2) h = (h_attach_all env x i l1 ≫= fun _ => h_attach_all env x (i + length l1) l2) h.
Proof using.
  revert i h. induction l1 as [|y l1 IH]; intros i h; cbn [app h_attach_all length].
  - unfold mbind, hm_bind, hskip, mret, hm_ret. by rewrite Nat.add_0_r.
  - unfold mbind, hm_bind. destruct (h_attach_child env x i y h) as [[u|e] h1]; [|done]. rewrite IH. unfold mbind, hm_bind. by rewrite Nat.add_succ_comm.
Qed.
Lemma h_splice_app x a b l1 l2 h : h_splice_children env x a b (l1 ++ l2) h = (h_splice_children env x a b l1 ≫= fun _ => h_attach_all env x (a + length l1) l2) h.
Proof using.
  unfold h_splice_children. unfold mbind, hm_bind. destruct (h_get x h) as [[n|e] h1]; [|done]. destruct (hassert (n_mut n) h1) as [[u|e] h2]; [|done].
  destruct (h_green x h2) as [[g|e] h3]; [|done]. destruct (h_children_new x h3) as [[it|e] h4]; [|done]. destruct (h_detach_loop _ _ _ _ _ _ h4) as [[w|e] h5]; [|done].
  rewrite h_attach_all_app. done.
Qed.
(** the element of an immutable tree is refused before it is touched *)
Lemma splice_imm_child st hs h s a b pre c post st1 x1 : wf_st st -> simulates st hs h -> full st c -> imm_handle st c = true -> c ∉ pre -> s ∉ pre -> Forall (full st) post ->
  s_step (OSplice s a b pre) st = SOk (st1, x1) ->
  exists h1, hstep env (OSplice s a b pre) hs h = (Ok (foldl (fun hs c => hdel c hs) hs pre, None), h1) /\
    hstep env (OSplice s a b (pre ++ c :: post)) hs h = (Err Panic, h1).
Proof using Henv.
  intros Hwf Hsim Hc Hi Hcp Hsp Hpost Hst. pose proof (sim_step env Henv (OSplice s a b pre) _ _ _ Hsim) as Hm. rewrite Hst in Hm. apply wp_ok in Hm as ([hs1 x']&h1&E1&Ex&Hsim1). simpl in Ex, Hsim1. subst x'.
  destruct (splice_full s a b pre st ltac:(by rewrite Hst)) as [[hh Hs] Hpre].
  destruct Hsim as (zs&lk&Hsim). destruct (sim_slot _ _ _ _ _ _ _ _ Hsim Hs) as (z&Hz&->&Hzh&Hin).
  assert (Hslots : forall l, Forall (full st) l -> exists ys, mapM (fun c => mjoin (h_handles hs !! c)) l = Some ys /\ length ys = length l).
  { intros l Hl. destruct (mapM_slots st hs zs lk h l Hsim) as (ys&Hys&_).
    { apply forallb_forall. intros d Hd%elem_of_list_In. rewrite Forall_forall in Hl. destruct (Hl d Hd) as [hd E]. rewrite E. apply bool_decide_eq_true. by eexists. }
    exists ys. split; [done|]. symmetry. by eapply mapM_length. }
  destruct (Hslots pre Hpre) as (ys&Hys&_). destruct (Hslots (c :: post)) as (zs'&Hzs&_); [by constructor|].
  assert (Hall : mapM (fun c => mjoin (h_handles hs !! c)) (pre ++ c :: post) = Some (ys ++ zs')).
  { apply mapM_Some. apply mapM_Some in Hys, Hzs. by apply Forall2_app. }
  apply mapM_Some in Hzs. apply Forall2_cons_inv_l in Hzs as (yc&zs''&Hyc&_&->).
  cbn [hstep] in E1 |- *. rewrite Hzh, Hys in E1. rewrite Hzh, Hall. rewrite Hys. unfold h_slot, mbind, hm_bind, mret, hm_ret in *.
  destruct (h_splice_children env z.1 a b ys h) as [[u|e] h1'] eqn:Esp; [|done]. injection E1 as <- <- <-. exists h1'. split; [done|].
  rewrite h_splice_app. unfold mbind, hm_bind. rewrite Esp.
  (* the parent and the child afterwards *)
  set (hs1 := foldl (fun hs c => hdel c hs) hs pre) in *.
  assert (Hkeep : forall d, d ∉ pre -> h_handles hs1 !! d = h_handles hs !! d).
  { unfold hs1. clear. revert hs. induction pre as [|d' pre IH]; intros hs d Hd; [done|]. apply not_elem_of_cons in Hd as [Hd1 Hd2]. simpl. rewrite IH by done. simpl. by rewrite list_lookup_insert_ne. }
  assert (Hst1 : forall d y, d ∉ pre -> h_handles hs !! d = Some (Some y) -> exists hd, s_handles st1 !! d = Some (Some hd)).
  { intros d y Hd Hy. rewrite <- (Hkeep d Hd) in Hy. destruct Hsim1 as (zs1&lk1&Hsim1). rewrite (sm_handles _ _ _ _ _ _ Hsim1) in Hy. apply lookup_map_fmap in Hy as (z1&Hz1&_).
    exists z1.2. rewrite (sm_pos _ _ _ _ _ _ Hsim1), list_lookup_fmap, Hz1. done. }
  assert (Hc1 : h_handles hs !! c = Some (Some yc)) by (destruct (h_handles hs !! c) as [[]|]; simpl in Hyc; congruence).
  destruct (Hst1 s z.1 Hsp Hzh) as [[n1 p1] Hs1]. destruct (Hst1 c yc Hcp Hc1) as [hc1 Hc2].
  assert (Hwf1 : wf_st st1). { pose proof (typed_step (OSplice s a b pre) st Hwf) as Hg. by rewrite Hst in Hg. }
  destruct (Hwf1 s _ Hs1) as (ms&ts&Hts&_). destruct (handle_mut _ _ _ _ _ _ _ _ Hsim1 Hs1 Hts) as (x&nd&Ex1&Ex2&_). rewrite (Hkeep s Hsp), Hzh in Ex1. injection Ex1 as <-.
  destruct (imm_handle_true _ _ Hi) as (nc&pc&tc&Hc0&Htc).
  destruct (run_mkeep [OSplice s a b pre] st st1 [None] Hwf) as [(K1&_&_&K4) _]; [cbn [s_run]; by rewrite Hst|].
  assert (hc1 = (@pair nat pos nc pc)) as -> by (eapply K4; [exact Hc0|exact Htc|exact Hc2]).
  destruct (handle_mut _ _ _ _ _ _ _ _ Hsim1 Hc2 (K1 _ _ Htc)) as (y&nd'&Ey1&Ey2&Ey3). rewrite (Hkeep c Hcp), Hc1 in Ey1. injection Ey1 as <-.
  cbn [h_attach_all]. unfold mbind, hm_bind. unfold h_attach_child, h_detach, mbind, hm_bind, h_get, hassert. rewrite Ex2. unfold mret, hm_ret, lift.
  destruct (n_mut nd); [|done]. rewrite Ey2. rewrite Ey3. done.
Qed.
Lemma attach_all_slots s a ins : forall st st', s_attach_all s a ins st = SOk st' -> s ∉ ins.
Proof using.
  revert a. induction ins as [|c ins IH]; intros a st st' H; [apply not_elem_of_nil|]. cbn [s_attach_all] in H. destruct (Nat.eqb_spec c s) as [->|Hne]; simpl in H; [done|].
  apply bind_ok in H as (st1&_&H). apply not_elem_of_cons. split; [done|]. by eapply IH.
Qed.
Lemma splice_slots s a b ins st st' x : s_step (OSplice s a b ins) st = SOk (st', x) -> s ∉ ins.
Proof using.
  simpl. intros H. apply bind_ok in H as (st1&H&_). unfold s_splice in H. apply bind_ok in H as (hh&_&H). apply bind_ok in H as ([m y]&_&H).
  apply bind_ok in H as ([]&_&H). apply bind_ok in H as ([]&_&H). apply bind_ok in H as (st2&_&H). by eapply attach_all_slots.
Qed.
(** a panic leaves exactly what its residue leaves *)
Lemma caught o st st' hs h ops xs : wf_st st -> simulates st hs h -> s_step o st = SPanic -> residue o st = Some ops -> s_run ops st = SOk (st', xs) ->
  exists hs' h', hstepc env o hs h = (Ok (hs', None), h') /\ hrun env ops hs h = (Ok (hs', xs), h').
Proof using Henv.
  intros Hwf Hsim Ho Hr Hops. pose proof (sim_step env Henv o st hs h Hsim) as Hm. rewrite Ho in Hm. cbn [meets] in Hm.
  assert (Hclean : ops = [] -> (forall s a b ins, o <> OSplice s a b ins) -> (hstep env o hs h).2 = h ->
    exists hs' h', hstepc env o hs h = (Ok (hs', None), h') /\ hrun env ops hs h = (Ok (hs', xs), h')).
  { intros -> Hns Hc. injection Hops as _ <-. exists hs, h. split; [|done]. unfold hstepc. destruct (hstep env o hs h) as [r h']; simpl in *; subst. destruct o; try done. by destruct (Hns s a b ins). }
  assert (Hcl : fails_clean (hstep env o hs) -> (hstep env o hs h).2 = h).
  { intros H. destruct (hstep env o hs h) as [r h'] eqn:E; simpl in *. subst r. by eapply H. }
  destruct o; try done.
  - (* clone_for_update *)
    injection Hr as <-. apply Hclean; [done|done|].
    simpl in Ho. destruct (s_handles st !! s) as [[[n p]|]|] eqn:Hs; simpl in Ho; [|done|done]. unfold s_elem in Ho. simpl in Ho.
    destruct (s_trees st !! n) as [[m t]|] eqn:Ht; simpl in Ho; [|done]. destruct (tsub t p) as [x|]; simpl in Ho; [|done]. destruct (is_node x); simpl in Ho; [|done].
    destruct m; simpl in Ho; [|done]. destruct (handle_mut _ _ _ _ _ _ _ _ Hsim Hs Ht) as (y&nd&E1&E2&E3). cbn [hstep]. rewrite E1.
    unfold h_clone_for_update, h_size, h_slot, mbind, hm_bind, lift, mret, hm_ret. simpl.
    unfold h_get, hassert, mbind, hm_bind, mret, hm_ret, lift. rewrite E2, E3. done.
  - (* detach *)
    injection Hr as <-. apply Hclean; [done|done|].
    simpl in Ho. destruct (s_handles st !! s) as [[[n p]|]|] eqn:Hs; simpl in Ho; [|done|done]. unfold s_detach in Ho. simpl in Ho.
    destruct (s_trees st !! n) as [[m t]|] eqn:Ht; simpl in Ho; [|done]. destruct m; simpl in Ho; [|by rewrite (detach_imm env _ _ _ _ _ _ _ Hsim Hs Ht)].
    destruct (last p); [|done]. by destruct (tsub t p).
  - (* splice_children *)
    cbn [residue] in Hr. case_bool_decide as Hnd; [|done]. destruct (splice_full s a b ins st ltac:(by rewrite Ho)) as [Hfs HF].
    destruct (imm_handle st s) eqn:Hi.
    + injection Hr as <-. destruct (imm_handle_true _ _ Hi) as (n&p&t&Hs&Ht).
      assert (Himm : forall l, Forall (full st) l -> hstep env (OSplice s a b l) hs h = (Err Panic, h)) by (intros l Hl; by eapply splice_imm).
      unfold hstepc. rewrite (Himm ins HF). rewrite h_taken_none.
      2:{ intros j _ _. exists Panic. rewrite Himm; [done|]. by apply Forall_take. }
      cbn [take foldl]. rewrite drop_0. by eapply unwind_drops.
    + destruct (split_imm st ins) as [[pre rest]|] eqn:Esp; [|done]. cbn [fmap option_fmap option_map fst snd] in Hr. injection Hr as <-.
      destruct (split_imm_some _ _ _ _ Esp) as (->&c&post&->&Hc). apply Forall_app in HF as [HF1 [HFc HF2]%Forall_cons].
      apply NoDup_app in Hnd as (_&Hd&_). assert (Hcp : c ∉ pre) by (intros Hin; apply (Hd c Hin); left).
      cbn [s_run] in Hops. apply bind_ok in Hops as ([st1 x1]&Hst&Hops). apply bind_ok in Hops as ([st2 xs2]&Hdr&E). injection E as <- <-.
      pose proof (splice_slots _ _ _ _ _ _ _ Hst) as Hsp.
      destruct (splice_imm_child _ _ _ _ _ _ _ _ post _ _ Hwf Hsim HFc Hc Hcp Hsp HF2 Hst) as (h1&E1&E2).
      pose proof (sim_step env Henv (OSplice s a b pre) _ _ _ Hsim) as Hm1. rewrite Hst in Hm1. unfold meets, wp in Hm1. rewrite E1 in Hm1. destruct Hm1 as [Ex Hsim1]. simpl in Ex, Hsim1. subst x1.
      assert (Ek : h_taken env s a b (pre ++ c :: post) hs h (length (pre ++ c :: post)) = length pre).
      { apply h_taken_some; [rewrite app_length; lia| |].
        - intros j Hj1 Hj2. exists Panic. rewrite take_app_ge by lia. destruct (j - length pre) as [|j'] eqn:Ej; [lia|]. cbn [take].
          destruct (splice_imm_child _ _ _ _ _ _ _ _ (take j' post) _ _ Hwf Hsim HFc Hc Hcp Hsp ltac:(by apply Forall_take) Hst) as (h2&_&E3). by rewrite E3.
        - rewrite take_app. rewrite E1. by eexists. }
      unfold hstepc. rewrite E2. rewrite Ek, drop_app, take_app.
      destruct (unwind_drops _ _ _ _ _ _ Hsim1 Hdr) as (hs'&h'&A1&A2). exists hs', h'. split; [exact A1|].
      cbn [hrun]. unfold mbind, hm_bind, mret, hm_ret in *. rewrite E1, A2. done.
  - (* child_or_token_at_range *)
    injection Hr as <-. apply Hclean; [done|done|].
    simpl in Ho. destruct Hsim as (zs&lk&Hsim). destruct (s_handles st !! s) as [[hh|]|] eqn:Hs; simpl in Ho; [|done|done].
    destruct (sim_slot _ _ _ _ _ _ _ _ Hsim Hs) as (z&Hz&->&Hzh&Hin). unfold s_elem in Ho. destruct (s_trees st !! z.2.1) as [[m t]|] eqn:Ht; simpl in Ho; [|done].
    destruct (tsub t z.2.2) as [x|] eqn:Hx; simpl in Ho; [|done]. destruct (is_node x && _); simpl in Ho; [|done].
    unfold s_range in Ho. rewrite Ht in Ho. destruct (trange t z.2.2) as [[o e]|] eqn:Er; simpl in Ho; [|done]. destruct (N.leb_spec o a) as [|Hlt]; simpl in Ho; [done|].
    cbn [hstep]. rewrite Hzh. unfold h_slot, mbind, hm_bind, mret, hm_ret.
    rewrite (at_range_before h (s_trees st) (somes zs ++ lk) _ z m t o e a b (sm_sim _ _ _ _ _ _ Hsim) Hin Ht Er Hlt). done.
  - (* splice_children on greens *)
    cbn [residue] in Hr. destruct (s_greens st !! g) as [[t|]|]; [|done|done]. destruct ((a <=? b) && _); [done|]. injection Hr as <-. apply Hclean; [done|done|].
    apply Hcl. cbn [hstep]. apply clean_bind; [apply reads_slot|]. intros x. apply clean_bind; [apply reads_green_read|]. intros _.
    destruct (mapM _ els); [|by apply clean_reads]. apply clean_then_ok, clean_build.
  - (* children().nth(i).unwrap() *)
    injection Hr as <-. apply Hclean; [done|done|].
    simpl in Ho. destruct Hsim as (zs&lk&Hsim). destruct (s_greens st !! g) as [[t|]|] eqn:Hg; simpl in Ho; [|done|done].
    destruct (sim_gslot _ _ _ _ _ _ _ _ Hsim Hg) as (x&Hx&<-&Hin). destruct (is_node (erase x)) eqn:Hn; simpl in Ho; [|done]. destruct (tchildren (erase x) !! i) eqn:Hi; [done|].
    assert (Hk : map snd (gchildren x) !! i = None). { destruct x as [a k tl cs|]; [|done]. simpl in Hi |- *. rewrite !list_lookup_fmap in *. by destruct (cs !! i). }
    cbn [hstep]. rewrite Hx. unfold h_slot, mbind, hm_bind, mret, hm_ret, h_green_read. destruct (g_live h x); [|done]. by rewrite Hk.
Qed.
Lemma catch_run prog : forall st hs h st' os, wf_st st -> simulates st hs h -> s_runc prog st = SOk (st', os) ->
  exists os' hs' h', s_run (without_panics prog st) st = SOk (st', os') /\ hrun env (without_panics prog st) hs h = (Ok (hs', os'), h') /\
    hrunc env prog hs h = (Ok (hs', os), h').
Proof using Henv.
  induction prog as [|o prog IH]; intros st hs h st' os Hwf Hsim H; cbn [s_runc] in H; [injection H as <- <-; by exists [], hs, h|].
  apply bind_ok in H as ([st1 x]&H1&H). apply bind_ok in H as ([st2 xs]&H2&H). injection H as <- <-. cbn [without_panics hrunc]. rewrite H1.
  assert (Hstep : exists ops os1 hs1 h1, (match s_step o st with SOk _ => [o] | _ => default [] (residue o st) end) = ops /\
    s_run ops st = SOk (st1, os1) /\ hrun env ops hs h = (Ok (hs1, os1), h1) /\ hstepc env o hs h = (Ok (hs1, x), h1)).
  { unfold s_stepc in H1. pose proof (sim_step env Henv o st hs h Hsim) as Hm. destruct (s_step o st) as [[st1' x']| | |] eqn:Ho; [| |done|done].
    - injection H1 as -> ->. apply wp_ok in Hm as ([hs1 x']&h1&E1&Ex&Hsim1). simpl in Ex, Hsim1. subst x'. exists [o], [x], hs1, h1. split_and!; [done| | |].
      + cbn [s_run]. by rewrite Ho.
      + cbn [hrun]. unfold mbind, hm_bind, mret, hm_ret. by rewrite E1.
      + unfold hstepc. by rewrite E1.
    - destruct (residue o st) as [ops|] eqn:Er; [|done]. destruct (s_run ops st) as [[st3 os1]| | |] eqn:Eo; try done. injection H1 as <- <-.
      destruct (caught o st st3 hs h ops os1 Hwf Hsim Ho Er Eo) as (hs1&h1&A1&A2). by exists ops, os1, hs1, h1. }
  destruct Hstep as (ops&os1&hs1&h1&->&B1&B2&B3).
  pose proof (sim_run env Henv ops st hs h Hsim) as Hm. rewrite B1 in Hm. unfold meets, wp in Hm. rewrite B2 in Hm. destruct Hm as [_ Hsim1]. simpl in Hsim1.
  assert (Hwf1 : wf_st st1) by (by eapply s_run_wf).
  destruct (IH _ _ _ _ _ Hwf1 Hsim1 H2) as (os'&hs'&h'&A1&A2&A3). exists (os1 ++ os'), hs', h'. split_and!.
  - rewrite s_run_app, B1. cbn [mbind sres_bind]. by rewrite A1.
  - rewrite hrun_app. unfold mbind, hm_bind, mret, hm_ret in *. rewrite B2. by rewrite A2.
  - unfold mbind, hm_bind, mret, hm_ret in *. by rewrite B3, A3.
Qed.
End catch.
(** a client that catches all panics *)
(** a whole such client *)
Definition clientc (env : henv) (prog : list op) : res (hst * list obs) * heap := hrunc env prog h_init (HP ∅ [] 0).
Lemma s_runc_ok prog : forall st st' os, s_run prog st = SOk (st', os) -> s_runc prog st = SOk (st', os).
Proof.
  induction prog as [|o prog IH]; intros st st' os H; cbn [s_run s_runc] in *; [done|]. apply bind_ok in H as ([st1 x]&H1&H).
  apply bind_ok in H as ([st2 xs]&H2&H). injection H as <- <-. unfold s_stepc. rewrite H1. cbn [mbind sres_bind]. by rewrite (IH _ _ _ H2).
Qed.
Lemma s_runc_app p1 p2 st : s_runc (p1 ++ p2) st = ('(st, xs) ← s_runc p1 st; '(st, ys) ← s_runc p2 st; SOk (st, xs ++ ys)).
Proof.
  revert st. induction p1 as [|o p1 IH]; intros st; cbn [app s_runc].
  - simpl. by destruct (s_runc p2 st) as [[]| | |].
  - destruct (s_stepc o st) as [[st1 x]| | |]; cbn [mbind sres_bind]; [|done..]. rewrite IH. destruct (s_runc p1 st1) as [[st2 xs]| | |]; cbn [mbind sres_bind]; [|done..].
    by destruct (s_runc p2 st2) as [[]| | |].
Qed.
Lemma run_drops l : forall st, Forall (full st) l -> NoDup l -> exists xs, s_run (map ODrop l) st = SOk (foldl (fun st c => del_handle c st) st l, xs).
Proof.
  induction l as [|c l IH]; intros st HF Hnd; [by eexists|]. apply Forall_cons in HF as [[hc Hc] HF]. apply NoDup_cons in Hnd as [Hcl Hnd].
  destruct (IH (del_handle c st)) as [xs Hxs]; [|done|].
  - apply Forall_forall. intros d Hd. rewrite Forall_forall in HF. destruct (HF d Hd) as [hd Hhd]. exists hd. simpl. rewrite list_lookup_insert_ne; [done|]. by intros ->.
  - cbn [map s_run s_step]. rewrite Hc. cbn [of_slot mbind sres_bind]. rewrite Hxs. by eexists.
Qed.
Lemma drops_keep l u : forall st, u ∉ l -> s_handles (foldl (fun st c => del_handle c st) st l) !! u = s_handles st !! u /\
  s_trees (foldl (fun st c => del_handle c st) st l) = s_trees st.
Proof.
  induction l as [|c l IH]; intros st Hu; [done|]. apply not_elem_of_cons in Hu as [Hc Hu]. simpl. destruct (IH (del_handle c st) Hu) as [-> ->].
  split; [|done]. simpl. by rewrite list_lookup_insert_ne.
Qed.
Lemma attach_all_app s a pre rest : forall st, s_attach_all s a (pre ++ rest) st = (st ← s_attach_all s a pre st; s_attach_all s (a + length pre) rest st).
Proof.
  revert a. induction pre as [|d pre IH]; intros a st; cbn [app s_attach_all length]; [by rewrite Nat.add_0_r|].
  destruct (negb (d =? s)); simpl; [|done]. destruct (s_attach s a d st); simpl; [|done..]. by rewrite IH, Nat.add_succ_comm.
Qed.
Lemma splice_keeps_full env (Henv : henv_ok env) st hs h s a b pre st1 x d : simulates st hs h -> s_step (OSplice s a b pre) st = SOk (st1, x) -> full st d -> d ∉ pre -> full st1 d.
Proof.
  intros Hsim Hst [hd Hd] Hn. pose proof (sim_step env Henv (OSplice s a b pre) _ _ _ Hsim) as Hm. rewrite Hst in Hm. apply wp_ok in Hm as ([hs1 x']&h1&E1&_&Hsim1). simpl in Hsim1.
  destruct Hsim as (zs&lk&Hsim). destruct (sim_slot _ _ _ _ _ _ _ _ Hsim Hd) as (z&_&_&Hzh&_).
  assert (Hz1 : h_handles hs1 !! d = Some (Some z.1)).
  { cbn [hstep] in E1. unfold mbind, hm_bind in E1. destruct (h_slot _ h) as [[y|] h2]; [|done]. destruct (mapM _ pre) as [ys|]; [|done]. destruct (h_splice_children _ _ _ _ _ h2) as [[u|] h3]; [|done].
    injection E1 as <- _ _. rewrite <- Hzh. clear -Hn. revert hs. induction pre as [|d' pre IH]; intros hs; [done|]. apply not_elem_of_cons in Hn as [Hd1 Hd2]. simpl. rewrite IH by done.
    simpl. by rewrite list_lookup_insert_ne. }
  destruct Hsim1 as (zs1&lk1&Hsim1). rewrite (sm_handles _ _ _ _ _ _ Hsim1) in Hz1. apply lookup_map_fmap in Hz1 as (z1&Hz1&_).
  exists z1.2. rewrite (sm_pos _ _ _ _ _ _ Hsim1), list_lookup_fmap, Hz1. done.
Qed.
Lemma splice_imm_child_spec env (Henv : henv_ok env) st hs h s a b pre c post st1 x : wf_st st -> simulates st hs h -> imm_handle st c = true -> c ∉ pre -> Forall (full st) post ->
  s_step (OSplice s a b pre) st = SOk (st1, x) -> s_step (OSplice s a b (pre ++ c :: post)) st = SPanic /\ imm_handle st s = false.
Proof.
  intros Hwf Hsim Hi Hcp HF Hst. destruct (imm_handle_true _ _ Hi) as (nc&pc&tc&Hc0&Htc). assert (Hfc : full st c) by by eexists.
  destruct (splice_full s a b pre st ltac:(by rewrite Hst)) as [_ Hpre]. destruct (splice_keeps_full env Henv _ _ _ _ _ _ _ _ _ _ Hsim Hst Hfc Hcp) as [hc1 Hc1].
  pose proof (run_mkeep [OSplice s a b pre] st st1 [x] Hwf) as K. cbn [s_run] in K. rewrite Hst in K. destruct (K eq_refl) as [(K1&_&_&K4) _].
  assert (hc1 = (@pair nat pos nc pc)) as -> by (eapply K4; [exact Hc0|exact Htc|exact Hc1]). specialize (K1 _ _ Htc).
  assert (Hwf1 : wf_st st1). { pose proof (typed_step (OSplice s a b pre) st Hwf) as Hg. by rewrite Hst in Hg. }
  pose proof (splice_keeps_full env Henv _ _ _ _ _ _ _ _ _ s Hsim Hst (proj1 (splice_full s a b pre st ltac:(by rewrite Hst))) (splice_slots _ _ _ _ _ _ _ Hst)) as Hs1.
  simpl in Hst |- *. unfold s_splice in *. destruct (s_handles st !! s) as [[[n p]|]|] eqn:Hs; simpl in Hst |- *; [|done|done].
  unfold s_elem in *. cbn [fst snd] in *. destruct (s_trees st !! n) as [[m t]|] eqn:Ht; simpl in Hst |- *; [|done]. destruct (tsub t p) as [y|]; simpl in Hst |- *; [|done].
  destruct (is_node y); simpl in Hst |- *; [|done].
  assert (Hall : forall l, Forall (full st) l -> forallb (fun c => bool_decide (is_Some (mjoin (s_handles st !! c)))) l = true).
  { intros l Hl. apply forallb_forall. intros d Hd%elem_of_list_In. rewrite Forall_forall in Hl. destruct (Hl d Hd) as [hd E]. rewrite E. apply bool_decide_eq_true. by eexists. }
  rewrite Hall in Hst by done. rewrite Hall by (apply Forall_app; split; [done|by constructor]). simpl in Hst |- *.
  destruct m; simpl in Hst |- *; [|done]. split; [|unfold imm_handle; rewrite Hs; simpl; by rewrite Ht].
  destruct (if _ && _ then _ else _) as [st0| | |]; simpl in Hst |- *; [|done..]. rewrite attach_all_app.
  apply bind_ok in Hst as (st1'&Hst&E). injection E as -> _. rewrite Hst. simpl.
  destruct (Nat.eqb_spec c s) as [->|Hne]; [rewrite Hs in Hc0; injection Hc0 as -> ->; congruence|]. simpl. unfold s_attach.
  destruct Hs1 as [[ns ps] Hs1]. rewrite Hs1. destruct (Hwf1 s _ Hs1) as (ms&ts&Hts&[ys Hys]). simpl in Hts, Hys. simpl. unfold s_elem. cbn [fst snd]. rewrite Hts, Hys. simpl.
  destruct ms; simpl; [|done]. rewrite Hc1. simpl. unfold s_detach. simpl. by rewrite K1.
Qed.
Lemma without_panics_app prog later : forall st st' os, s_run prog st = SOk (st', os) -> without_panics (prog ++ later) st = prog ++ without_panics later st'.
Proof.
  induction prog as [|o prog IH]; intros st st' os H; cbn [s_run app without_panics] in *; [by injection H as <- _|].
  apply bind_ok in H as ([st1 x]&H1&H). apply bind_ok in H as ([st2 xs]&H2&H). injection H as <- _. unfold s_stepc. rewrite H1. simpl. by rewrite (IH _ _ _ H2).
Qed.
