(** * Facts about serialisation *)
From Verif Require Export Serde FmtFacts.

Section makes.
Context (fails : list scall -> scall -> bool).
Lemma makes_call c : makes fails (scall1 fails c) [c].
Proof.
  intros log. exists (negb (fails log c)), [c]. split; [done|]. split; [done|]. split; [done|]. split.
  - intros H. by rewrite H.
  - intros H. exists [], c. rewrite app_nil_r. split; [done|]. by destruct (fails log c).
Qed.
Lemma makes_nil : makes fails (fun log => Ok (true, log)) [].
Proof. intros log. exists true, []. by rewrite app_nil_r. Qed.
Lemma makes_seq a b s1 s2 : makes fails a s1 -> makes fails b s2 -> makes fails (sseq a b) (s1 ++ s2).
Proof.
  intros Ha Hb log. unfold sseq. destruct (Ha log) as (ok&x&->&Hx&H1&H2&H3). simpl. destruct ok.
  - rewrite (H1 eq_refl) in *. destruct (Hb (log ++ s1)) as (ok&y&->&Hy&H4&H5&H6).
    exists ok, (s1 ++ y). rewrite app_assoc. split; [done|]. split; [by apply prefix_app|]. split; [intros Hok; by rewrite H4|].
    split; [done|]. intros Hok. destruct (H6 Hok) as (z&c&->&Hc). exists (s1 ++ z), c. by rewrite !app_assoc.
  - exists false, x. split; [done|]. split; [by apply prefix_app_r|]. split; [done|]. split; [done|done].
Qed.
Lemma makes_calls l : makes fails (scalls fails l) l.
Proof. induction l as [|s l IH]; simpl; [apply makes_nil|]. apply (makes_seq _ _ [s] l); [apply makes_call|done]. Qed.
Lemma makes_ext f g s : (forall log, f log = g log) -> makes fails f s -> makes fails g s.
Proof. intros H Hf log. rewrite <- H. apply Hf. Qed.
End makes.

(** the calls for a tree *)
Section stream.
Context (kfr : kind -> kind) (kdbg : kind -> str) (root : tree).
(** proof device, no counterpart in the code *)
Definition rng (p : pos) : N * N := default (0%N, 0%N) (trange root p).
(** proof device, no counterpart in the code *)
Definition head_calls (p : pos) (k : kind) : list scall :=
  [SMap (Some 3); SKey k_kind; SDisplay (kdbg (kfr k)); SKey k_range; STuple 2; SU32 (rng p).1; SU32 (rng p).2; STupleEnd].
(** proof device, no counterpart in the code *)
Fixpoint stream (p : pos) (t : tree) : list scall :=
  head_calls p (tkind t) ++
  match t with
  | Token _ s => [SKey k_text; SStr s; SMapEnd]
  | Node _ cs =>
      [SKey k_children; SSeq None] ++
      ((fix go (i : nat) (cs : list tree) : list scall :=
          match cs with [] => [] | c :: cs' => stream (p ++ [i]) c ++ go (S i) cs' end) 0 cs) ++
      [SSeqEnd; SMapEnd]
  end.
(** proof device, no counterpart in the code *)
Fixpoint streams (p : pos) (i : nat) (cs : list tree) : list scall :=
  match cs with [] => [] | c :: cs' => stream (p ++ [i]) c ++ streams p (S i) cs' end.
Lemma stream_node p k cs :
  stream p (Node k cs) = head_calls p k ++ [SKey k_children; SSeq None] ++ streams p 0 cs ++ [SSeqEnd; SMapEnd].
Proof.
  simpl. do 10 f_equal. f_equal. generalize 0. induction cs as [|c cs IH]; intros i; simpl; [done|]. by rewrite IH.
Qed.
End stream.

Section ser.
Context (fails : list scall -> scall -> bool) (kfr : kind -> kind) (kdbg : kind -> str).
Context (root : green) (Hwf : wfg root).
Local Notation strm := (stream kfr kdbg (erase root)).
Lemma makes_head p c : cursor_at root p = Some c ->
  makes fails (ser_head fails kfr kdbg c) (head_calls kfr kdbg (erase root) p (tkind (erase (c_green c)))).
Proof using Hwf.
  intros Hc. assert (c_kind c = tkind (erase (c_green c))) as Hk by (unfold c_kind; by destruct (c_green c)).
  unfold head_calls, rng. rewrite (crange_trange root Hwf p c Hc). simpl fst. simpl snd. simpl default. rewrite <- Hk.
  apply (makes_seq fails _ _ [SMap (Some 3); SKey k_kind; SDisplay (kdbg (kfr (c_kind c))); SKey k_range]
    [STuple 2; SU32 (c_offset c); SU32 (c_offset c + blen (gtext (c_green c))); STupleEnd]).
  - apply makes_calls.
  - eapply makes_ext; [|apply makes_calls]. intros log. by rewrite (c_text_range_at root Hwf p c Hc).
Qed.
Lemma makes_element fuel p c : cursor_at root p = Some c -> gsize (c_green c) <= fuel ->
  makes fails (ser_element fails kfr kdbg fuel c) (strm p (erase (c_green c))).
Proof using Hwf.
  revert p c. induction fuel as [|fuel IH]; intros p c Hc Hf; [pose proof (gsize_pos (c_green c)); lia|].
  pose proof (makes_head p c Hc) as Hh. destruct (c_green c) as [a k tl cs|a k s] eqn:Eg.
  - cbn [erase] in *. rewrite stream_node.
    eapply makes_ext; [intros log; symmetry; cbn [ser_element]; unfold c_is_node; rewrite Eg; cbn [gis_node]; reflexivity|].
    apply makes_seq; [done|]. apply makes_seq; [apply makes_calls|]. apply makes_seq; [|apply makes_calls].
    destruct (children_with_tokens_at root p c Hwf Hc) as (l&Hl&Hat).
    eapply makes_ext; [intros log; symmetry; rewrite Hl; cbn [mbind res_bind]; reflexivity|].
    rewrite Eg in Hat. cbn [gchildren] in Hat.
    assert (forall i cs' l', drop i cs = cs' -> Forall2 (fun i c => cursor_at root (p ++ [i]) = Some c) (seq i (length cs')) l' ->
      makes fails (sall (map (ser_element fails kfr kdbg fuel) l'))
        (streams kfr kdbg (erase root) p i (map (fun c => erase c.2) cs'))) as Hall.
    { clear Hat Hl l. intros i cs'. revert i. induction cs' as [|ch cs' IHcs]; intros i l' Hd HF; simpl in HF.
      - apply Forall2_nil_inv_l in HF as ->. apply makes_nil.
      - apply Forall2_cons_inv_l in HF as (d&l''&Hcd&HF&->). cbn [map streams sall].
        assert (cs !! i = Some ch) as Hch by (by rewrite <- (Nat.add_0_r i), <- lookup_drop, Hd).
        assert (gchildren (c_green c) !! i = Some ch) as Hch' by (by rewrite Eg).
        rewrite (cursor_at_child root p c i ch Hc Hch') in Hcd. injection Hcd as <-.
        apply makes_seq.
        + apply (IH (p ++ [i]) (CChild c i (c_offset c + ch.1) ch.2)); [by apply cursor_at_child|].
          pose proof (gsize_child _ _ _ Hch') as Hs. rewrite Eg in Hs. simpl c_green. lia.
        + apply IHcs; [|done]. by rewrite <- Nat.add_1_r, <- drop_drop, Hd. }
    specialize (Hall 0 cs l eq_refl Hat). done.
  - eapply makes_ext; [intros log; symmetry; cbn [ser_element]; unfold c_is_node; rewrite Eg; cbn [gis_node]; reflexivity|].
    apply (makes_seq fails _ _ _ [SKey k_text; SStr s; SMapEnd]); [done|]. unfold c_text. rewrite Eg. apply makes_calls.
Qed.
End ser.

(** ** Reading back *)
Section unser.
Context (kfr : kind -> kind) (kdbg : kind -> str) (kun : str -> option kind) (root : tree).
Local Notation strm := (stream kfr kdbg root).
Local Notation strms := (streams kfr kdbg root).
Lemma stream_length p t : 0 < length (strm p t).
Proof using Type. clear kun. destruct t; simpl; lia. Qed.
Lemma stream_head p t : exists l, strm p t = SMap (Some 3) :: l.
Proof using Type. clear kun. destruct t; simpl; eauto. Qed.
Lemma unser_list_map fuel l : (exists l', l = SMap (Some 3) :: l') ->
  unser_list kun (S fuel) l =
  match unser kun fuel l with
  | Some (t, rs, l1) => match unser_list kun fuel l1 with Some (ts, rs', l2) => Some (t :: ts, rs ++ rs', l2) | None => None end
  | None => None
  end.
Proof. by intros [l' ->]. Qed.
(** proof device, no counterpart in the code *)
Definition good (k : kind) : Prop := kun (kdbg (kfr k)) = Some k.
Lemma unser_stream t p rest fuel : Forall good (tkinds t) -> length (strm p t) <= fuel ->
  unser kun fuel (strm p t ++ rest) = Some (t, map (fun q => rng root (p ++ q)) (positions t), rest).
Proof.
  revert p rest fuel. induction t as [k cs IH|k s] using tree_ind'; intros p rest fuel Hk Hf.
  - rewrite stream_node in *. inversion Hk as [|? ? Hk1 Hk2]; subst.
    rewrite !app_length in Hf. simpl in Hf. destruct fuel as [|fuel]; [lia|].
    rewrite <- !app_assoc. simpl. unfold good in Hk1. rewrite Hk1.
    assert (forall i fuel rest, length (strms p i cs) < fuel ->
      unser_list kun fuel (strms p i cs ++ SSeqEnd :: rest) =
        Some (cs, map (fun q => rng root (p ++ q)) (positions_list i cs), rest)) as Hl.
    { clear Hf Hk Hk1 fuel rest. induction IH as [|c cs Hc _ IHcs]; intros i fuel rest Hf; (destruct fuel as [|fuel]; [simpl in Hf; lia|]).
      - done.
      - simpl in Hk2. apply Forall_app in Hk2 as [Hk1 Hk2]. simpl streams in *. rewrite app_length in Hf.
        pose proof (stream_length (p ++ [i]) c) as Hpos. rewrite <- app_assoc.
        destruct (stream_head (p ++ [i]) c) as [l Hh].
        rewrite unser_list_map by (rewrite Hh; simpl; eauto).
        rewrite Hc by (done || lia). rewrite IHcs by (done || lia).
        simpl positions_list. rewrite map_app, map_map. do 3 f_equal. f_equal.
        apply map_ext. intros q. by rewrite <- app_assoc. }
    rewrite Hl by lia. rewrite app_nil_r. by destruct (rng root p).
  - simpl in Hf. destruct fuel as [|fuel]; [lia|]. inversion Hk as [|? ? Hk1 _]; subst. unfold good in Hk1.
    simpl. rewrite Hk1, app_nil_r. by destruct (rng root p).
Qed.
End unser.
