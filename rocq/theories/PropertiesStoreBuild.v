(** * Theorems: builders and caches on counted memory (C79-C80)

    [w_run E al pr prog world0] runs a client that uses any number of [GreenNodeBuilder]s, [NodeCache]s
    and handles of green nodes and tokens on reference-counted allocations; the client catches panics.
    [sw_run pr prog sworld0 = Some _] says that the program compiles and what it computes on trees,
    without any cache.  [E]: hash function, hash tables; [al]: the allocator, which may reuse the
    addresses of freed allocations; [pr]: the build profile. *)
From Verif Require Import StoreClient StoreBuildFacts.
Local Open Scope nat_scope.

(** an environment that meets [menv_ok]: the first entry that matches; tables grow at every other insertion *)
Definition ex_menv : menv := {|
  m_hinit := 7; m_hkind := fun h k => h * 31 + k + 1; m_htext := fun h s => fold_left (fun h c => h * 31 + c + 1) s h;
  m_hu64 := fun h x => h * 31 + x + 1; m_hfin := fun h => h mod 5 + 1;
  m_probe := fun _ tab h eq => option_map snd (List.find (fun e => (e.1 =? h) && eq e.2) tab);
  m_grows := fun t _ => Nat.even t; m_order := fun _ tab => rev tab |}%N.
Lemma ex_menv_ok : menv_ok ex_menv.
Proof.
  split.
  - intros t tab h eq. simpl. destruct (List.find _ tab) as [[h' a]|] eqn:Ef; simpl.
    + apply find_some in Ef as [Hin Hb]. apply andb_true_iff in Hb as [_ Hb]. split; [|done]. apply elem_of_snd. exists h'. by apply elem_of_list_In.
    + intros a Ha. apply elem_of_list_In in Ha. pose proof (find_none _ _ Ef _ Ha) as Hn. simpl in Hn. rewrite N.eqb_refl in Hn. exact Hn.
  - intros t tab. simpl. symmetry. apply Permutation_rev.
Qed.
(** two builders that share a cache build the same node; the first tree is dropped; a builder with a
    cache of its own is used wrongly three times *)
Definition ex_bops : list bop := [BStartNode 1; BToken 2 [97%N]; BStartNode 3; BToken 2 [97%N]; BFinishNode; BFinishNode].
(** example *)
Definition ex_wprog : list wop :=
  [WNewCache; WWithCache 0] ++ map (WCall 0) ex_bops ++ [WFinish 0; WWithCache 0] ++ map (WCall 1) ex_bops ++
  [WG (GODrop 0); WNewBuilder; WCall 2 (BToken 2 [98%N]); WCall 2 BFinishNode; WCall 2 (BStartNodeAt 2 1); WG (GOToken 2 [99%N])].
(** example *)
Definition ex_wtree : tree := (Node 1 [Token 2 [97]; Node 3 [Token 2 [97]]])%N.
(** example *)
Definition ex_wobs : list gobs :=
  [OUnit; OUnit] ++ map (fun _ => OUnit) ex_bops ++ [OHandle; OUnit] ++ map (fun _ => OUnit) ex_bops ++
  [OUnit; OUnit; OUnit; OPanic; OPanic; OHandle].
(** and everything is dropped; [finish] panics *)
Definition ex_wend : list wop := [WDropCache 0; WDropBuilder 1; WFinish 2; WG (GODrop 1)].

(** ** C79 *)
(** builders with caches, on memory: every call does what the same call does on trees without any
    cache; every handle and every element in a builder reads as the tree it was made as *)
Theorem c79_builders E al pr prog obs sw :
  menv_ok E -> galloc_ok al -> sw_run pr prog sworld0 = Some (obs, sw) ->
  exists w, w_run E al pr prog world0 = Ok (obs, w) /\
    Forall2 (fun o t => match o, t with Some a, Some t => reads (gmm (w_mem w)) a t | None, None => True | _, _ => False end)
      (w_env w) (sw_env sw) /\
    Forall2 (fun b s => match b, s with
        | Some b, Some (_, s) => Forall2 (reads (gmm (w_mem w))) (map snd (pb_children b)) (sb_pending s)
        | None, None => True
        | _, _ => False end)
      (w_builders w) (sw_builders sw).
Proof.
  intros HE Hal Hs. destruct (w_run_ok E HE al Hal pr prog _ _ _ _ _ _ _ _ (wrel_init E pr) Hs) as (w&genv&lkg&gcs&gbs&Hw&Hr).
  exists w. split; [done|]. destruct Hr as [Hww He _ _ Hbs Hi _ _]. rewrite He. rewrite Hww. cbn [w_env w_builders w_mem]. split.
  - assert (HF : forall g, g ∈ hs_of genv -> stored (gmm (w_mem w)) g).
    { intros g Hin. eapply gok_stored; [done|]. apply elem_of_app. by left. }
    clear -HF. induction genv as [|[g|] genv IH]; simpl; constructor; [apply stored_reads, HF; left| |done|].
    + apply IH. intros x Hx. apply HF. by right.
    + apply IH. intros x Hx. by apply HF.
  - assert (HF : forall i b g, gbs !! i = Some (Some b) -> g ∈ map snd (pb_children b) -> stored (gmm (w_mem w)) g).
    { intros i b g Hl Hg. eapply gok_stored; [done|]. rewrite !elem_of_app. do 3 right. eapply elem_of_elems; [done|].
      unfold pb_elems. apply elem_of_app. by right. }
    clear -Hbs HF. induction Hbs as [|gb sb gbs sbs Hb Hbs IH]; simpl; constructor.
    + destruct gb as [b|], sb as [[own s]|]; simpl; try done. destruct Hb as (_&[_ Hp]&_). rewrite <-Hp.
      rewrite amap_snd. rewrite <-(map_map snd erase). apply forall2_reads. apply Forall_forall. intros g Hg. by apply (HF 0 b).
    + apply IH. intros i b g Hl. by apply (HF (S i)).
Qed.
Print Assumptions c79_builders.
(** every count is exact; all memory is reachable from a handle, a cache, a builder, or from a node
    that leaked because its construction panicked; without those there is none in use *)
Theorem c79_exact E al pr prog obs sw :
  menv_ok E -> galloc_ok al -> sw_run pr prog sworld0 = Some (obs, sw) ->
  exists w leaked, w_run E al pr prog world0 = Ok (obs, w) /\ Forall2 (reads (gmm (w_mem w))) leaked (sw_leaks sw) /\
    (forall a n c, gmm (w_mem w) !! a = Some (n, c) ->
       0 < n /\ n = count_occ Nat.eq_dec (w_roots w ++ leaked) a + pointers_to (gmm (w_mem w)) a) /\
    (forall a, a ∈ dom (gmm (w_mem w)) -> exists b, b ∈ w_roots w ++ leaked /\ reaches (gmm (w_mem w)) b a) /\
    (sw_leaks sw = [] -> w_roots w = [] -> gmm (w_mem w) = ∅).
Proof.
  intros HE Hal Hs. destruct (w_run_ok E HE al Hal pr prog _ _ _ _ _ _ _ _ (wrel_init E pr) Hs) as (w&genv&lkg&gcs&gbs&Hw&Hr).
  exists w, (map gaddr lkg). split; [done|]. rewrite (wrel_roots _ _ _ _ _ _ _ _ Hr). destruct Hr as [_ _ Hl _ _ Hi _ _]. rewrite Hl.
  assert (Hok : gok (gmm (w_mem w)) ((hs_of genv ++ elems_of pc_elems gcs ++ elems_of pb_elems gbs) ++ lkg)).
  { eapply gok_perm; [|exact Hi]. perm. }
  rewrite <-map_app. split; [|split; [|split]].
  - apply forall2_reads. apply Forall_forall. intros g Hg. eapply gok_stored; [exact Hok|]. apply elem_of_app. by right.
  - intros a n c Ha. split.
    + destruct n; [|lia]. by apply (proj2 Hok) in Ha.
    + rewrite pointers_to_refs. match goal with |- n = count_occ _ ?l a + _ => change (count_occ Nat.eq_dec l a) with (occ a l) end.
      rewrite <-occ_app. by eapply (gi_count _ _ (proj1 Hok)).
  - intros a Ha. destruct (gok_reach _ _ _ Hok Ha) as (g&Hin&Hrc). exists (gaddr g). split; [|done]. apply elem_of_map. eauto.
  - intros ->%map_eq_nil Hn%map_eq_nil. rewrite Hn in Hok. by apply gok_nil in Hok.
Qed.
Print Assumptions c79_exact.
(** the leaks are real: a builder whose [finish_node] panics because a token is longer than [u32::MAX]
    leaves an empty node in memory after everything has been dropped *)
Theorem c79_builder_leaks E al pr s :
  menv_ok E -> galloc_ok al -> (u32_max < blen s)%N ->
  exists w, w_run E al pr [WNewBuilder; WCall 0 (BStartNode 1); WCall 0 (BToken 2 s); WCall 0 BFinishNode; WDropBuilder 0] world0 =
      Ok ([OUnit; OUnit; OUnit; OPanic; OUnit], w) /\
    w_roots w = [] /\ exists a, reads (gmm (w_mem w)) a (Node 1 []).
Proof.
  intros HE Hal Hs.
  assert (Hb : gbuildable pr [Token 2 s] = false).
  { destruct pr; simpl; rewrite ?app_nil_r, ?andb_true_r; by apply N.leb_gt. }
  assert (Hsw : sw_run pr [WNewBuilder; WCall 0 (BStartNode 1); WCall 0 (BToken 2 s); WCall 0 BFinishNode; WDropBuilder 0] sworld0 =
    Some ([OUnit; OUnit; OUnit; OPanic; OUnit], SW [] [Node 1 []] [] [None])).
  { cbn -[gbuildable]. by rewrite Hb. }
  destruct (c79_exact E al pr _ _ _ HE Hal Hsw) as (w&leaked&Hw&Hl&_).
  exists w. split; [done|]. simpl in Hl. inversion Hl as [|a ? ? ? Ha]; subst. split; [|eauto].
  destruct (w_run_ok E HE al Hal pr _ _ _ _ _ _ _ _ _ (wrel_init E pr) Hsw) as (w1&genv&lkg&gcs&gbs&Hw1&Hr1).
  rewrite Hw in Hw1. injection Hw1 as <-. rewrite (wrel_roots _ _ _ _ _ _ _ _ Hr1). destruct Hr1 as [_ He _ Hcs Hbs _ _ _]. simpl in *.
  destruct genv; [|done]. destruct gcs; [|done]. inversion Hbs as [|? ? ? ? H1 H2]; subst. inversion H2; subst. by destruct x.
Qed.
Print Assumptions c79_builder_leaks.
Example c79_too_long : exists s, (u32_max < blen s)%N.
Proof.
  assert (H : forall n, blen (replicate n 97%N) = N.of_nat n).
  { induction n as [|n IH]; [done|]. cbn [replicate]. change (97%N :: ?l) with ([97%N] ++ l). rewrite blen_app, IH. change (blen [97%N]) with 1%N. lia. }
  exists (replicate (N.to_nat (u32_max + 1)) 97%N). rewrite H, N2Nat.id. lia.
Qed.
Example c79_example :
  match sw_run Checked ex_wprog sworld0 with
  | Some (obs, sw) => obs = ex_wobs /\ sw_env sw = [None; Some (Token 2 [99%N])] /\ sw_leaks sw = [] /\
      map (option_map (fun s => sb_pending s.2)) (sw_builders sw) = [None; Some [ex_wtree]; Some [Token 2 [98%N]]]
  | None => False
  end /\
  match w_run ex_menv ex_al Checked ex_wprog world0 with
  | Ok (obs, w) => obs = ex_wobs /\ size (gmm (w_mem w)) = 5 /\ length (w_roots w) = 7
  | Err _ => False
  end /\
  match w_run ex_menv ex_al Checked (ex_wprog ++ ex_wend) world0 with
  | Ok (obs, w) => obs = ex_wobs ++ [OUnit; OUnit; OPanic; OUnit] /\ w_roots w = [] /\ size (gmm (w_mem w)) = 0
  | Err _ => False
  end.
Proof. vm_compute. repeat split; reflexivity. Qed.

(** ** C80 *)
(** the elements of a cache are different trees: what has the same tree is the same allocation *)
Theorem c80_entries E al pr prog obs sw :
  menv_ok E -> galloc_ok al -> sw_run pr prog sworld0 = Some (obs, sw) ->
  exists w, w_run E al pr prog world0 = Ok (obs, w) /\
    forall i b c a1 a2 t, (g_peek i (w_caches w) = Some c \/ g_peek i (w_builders w) = Some b /\ pb_cache b = Owned c) ->
      a1 ∈ pc_elems c -> a2 ∈ pc_elems c -> reads (gmm (w_mem w)) a1 t -> reads (gmm (w_mem w)) a2 t -> a1 = a2.
Proof.
  intros HE Hal Hs. destruct (w_run_ok E HE al Hal pr prog _ _ _ _ _ _ _ _ (wrel_init E pr) Hs) as (w&genv&lkg&gcs&gbs&Hw&Hr).
  exists w. split; [done|]. intros i b c a1 a2 t Hc H1 H2 Hr1 Hr2.
  destruct (wrel_cache _ _ _ _ _ _ _ _ _ _ _ Hr Hc) as (gc&->&Hin&Hst).
  rewrite cmap_elems in H1, H2. apply elem_of_map in H1 as (g1&->&H1), H2 as (g2&->&H2). f_equal.
  eapply cache_shared; [done|done|done|]. rewrite <-(stored_reads_det _ _ _ (Hst _ H1) Hr1), <-(stored_reads_det _ _ _ (Hst _ H2) Hr2). done.
Qed.
Print Assumptions c80_entries.
(** equal tokens, and, if the hash function does not yield 0, equal trees of nodes with at most three
    children, built with the same cache are the same allocation *)
Theorem c80_shared E al pr prog obs sw :
  menv_ok E -> galloc_ok al -> sw_run pr prog sworld0 = Some (obs, sw) ->
  exists w, w_run E al pr prog world0 = Ok (obs, w) /\
    forall i1 i2 b1 b2 a1 a2 t, g_peek i1 (w_builders w) = Some b1 -> g_peek i2 (w_builders w) = Some b2 -> same_cache (w_caches w) i1 i2 b1 b2 ->
      a1 ∈ map snd (pb_children b1) -> a2 ∈ map snd (pb_children b2) -> reads (gmm (w_mem w)) a1 t -> reads (gmm (w_mem w)) a2 t ->
      is_node t = false \/ small t = true /\ (forall x, m_hfin E x <> 0%N) -> a1 = a2.
Proof.
  intros HE Hal Hs. destruct (w_run_ok E HE al Hal pr prog _ _ _ _ _ _ _ _ (wrel_init E pr) Hs) as (w&genv&lkg&gcs&gbs&Hw&Hr).
  exists w. split; [done|]. intros i1 i2 b1 b2 a1 a2 t Hb1 Hb2 Hsame H1 H2 Hr1 Hr2 Ht.
  destruct (wrel_builder _ _ _ _ _ _ _ _ _ _ Hr Hb1) as (gb1&->&Hg1&Hst1&Hp1&Ho1), (wrel_builder _ _ _ _ _ _ _ _ _ _ Hr Hb2) as (gb2&->&Hg2&Hst2&Hp2&Ho2).
  destruct (wrel_same _ _ _ _ _ _ _ _ _ _ _ _ Hr Hg1 Hg2 Ho1 Hsame) as (gc&Hc1&Hc2&Hci). rewrite Hc1 in Hp1. rewrite Hc2 in Hp2.
  simpl in H1, H2. rewrite amap_snd in H1, H2. apply elem_of_map in H1 as (g1&->&H1), H2 as (g2&->&H2).
  pose proof (stored_reads_det _ _ _ (Hst1 _ H1) Hr1) as Ht1. pose proof (stored_reads_det _ _ _ (Hst2 _ H2) Hr2) as Ht2.
  assert (Hcache : forall gb g, mpinv E (Some gc) (pb_children gb) -> g ∈ map snd (pb_children gb) -> t = erase g -> g ∈ pc_elems gc).
  { intros gb g Hp (h&Hin)%elem_of_snd ->. destruct (Hp _ Hin) as (_&Hz&Htk&Hnd). simpl in *. unfold pc_elems. apply elem_of_app.
    destruct (gis_node g) eqn:Eg; [|right; by apply Htk]. left. destruct Ht as [Ht|[Ht Hf]]; [by destruct g|]. apply Hnd; [done|].
    intros ->. specialize (Hz Hf eq_refl). simpl in Hz. congruence. }
  f_equal. eapply cache_shared; [done|by apply (Hcache gb1)|by apply (Hcache gb2)|congruence].
Qed.
Print Assumptions c80_shared.
(** in the program above the second builder got the tree of the first one: the token once, two nodes *)
Example c80_example :
  (forall x, m_hfin ex_menv x <> 0%N) /\ small ex_wtree = true /\
  match w_run ex_menv ex_al Checked ex_wprog world0 with
  | Ok (_, w) => match w_caches w with [Some c] => length (pc_nodes c) = 2 /\ length (pc_tokens c) = 1 | _ => False end
  | Err _ => False
  end.
Proof. split; [intros x; simpl; lia|]. vm_compute. repeat split; reflexivity. Qed.
