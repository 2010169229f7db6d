(** * The node heap: program logic and invariant (proofs only) *)
From stdpp Require Export sorting.
From Verif Require Export HeapList CacheFacts.

(** ** Runs that end well *)
(** proof device, no counterpart in the code *)
Definition wp {A} (m : hm A) (Q : A -> heap -> Prop) (h : heap) : Prop :=
  match m h with (Ok a, h') => Q a h' | (Err _, _) => False end.
Lemma wp_ok {A} (m : hm A) (Q : A -> heap -> Prop) h : wp m Q h <-> exists a h', m h = (Ok a, h') /\ Q a h'.
Proof. unfold wp. destruct (m h) as [[a|e] h']; naive_solver. Qed.
Lemma wp_ret {A} (a : A) (Q : A -> heap -> Prop) h : Q a h -> wp (mret a) Q h.
Proof. done. Qed.
Lemma wp_bind {A B} (m : hm A) (f : A -> hm B) (Q : B -> heap -> Prop) h : wp m (fun a h' => wp (f a) Q h') h -> wp (m ≫= f) Q h.
Proof. unfold wp, mbind, hm_bind. by destruct (m h) as [[a|e] h']. Qed.
Lemma wp_mono {A} (m : hm A) (Q Q' : A -> heap -> Prop) h : wp m Q h -> (forall a h', Q a h' -> Q' a h') -> wp m Q' h.
Proof. unfold wp. destruct (m h) as [[a|e] h']; naive_solver. Qed.
Lemma wp_skip (Q : unit -> heap -> Prop) h : Q () h -> wp hskip Q h.
Proof. done. Qed.
Lemma wp_assert b (Q : unit -> heap -> Prop) h : b = true -> Q () h -> wp (hassert b) Q h.
Proof. by intros ->. Qed.
Lemma wp_lift {A} (r : res A) a (Q : A -> heap -> Prop) h : r = Ok a -> Q a h -> wp (lift r) Q h.
Proof. by intros ->. Qed.
Lemma wp_ptr o p (Q : id -> heap -> Prop) h : o = Some p -> Q p h -> wp (h_ptr o) Q h.
Proof. by intros ->. Qed.
Lemma wp_size (Q : nat -> heap -> Prop) h : Q (S (size (hn h))) h -> wp h_size Q h.
Proof. done. Qed.

(** ** A heap seen as one map per field *)
(** proof device, no counterpart in the code *)
Record core := CO { o_par : option id; o_idx : nat; o_grn : green; o_mut : bool; o_off : N }.
(** proof device, no counterpart in the code *)
Definition core_of (n : ndata) : core := CO (n_par n) (n_idx n) (n_grn n) (n_mut n) (n_off n).
(** proof device, no counterpart in the code *)
Record pmaps := PM {
  pc : gmap id core; pr : gmap id nat;
  pf : gmap id (option id); pn : gmap id (option id); pv : gmap id (option id);
  po : list green; pk : nat }.
(** proof device, no counterpart in the code *)
Definition P (h : heap) : pmaps :=
  PM (core_of <$> hn h) (n_rc <$> hn h) (n_first <$> hn h) (n_next <$> hn h) (n_prev <$> hn h) (ow h) (ck h).

Lemma fmap_upd_same {A} (f : ndata -> A) (m : gmap id ndata) p n n' :
  m !! p = Some n -> f n' = f n -> f <$> <[p:=n']> m = f <$> m.
Proof. intros H E. rewrite fmap_insert, E. apply insert_id. by rewrite lookup_fmap, H. Qed.

(** proof device, no counterpart in the code *)
Definition set_pc (x : pmaps) v := PM v (pr x) (pf x) (pn x) (pv x) (po x) (pk x).
(** proof device, no counterpart in the code *)
Definition set_pr (x : pmaps) v := PM (pc x) v (pf x) (pn x) (pv x) (po x) (pk x).
(** proof device, no counterpart in the code *)
Definition set_pf (x : pmaps) v := PM (pc x) (pr x) v (pn x) (pv x) (po x) (pk x).
(** proof device, no counterpart in the code *)
Definition set_pn (x : pmaps) v := PM (pc x) (pr x) (pf x) v (pv x) (po x) (pk x).
(** proof device, no counterpart in the code *)
Definition set_pv (x : pmaps) v := PM (pc x) (pr x) (pf x) (pn x) v (po x) (pk x).
(** proof device, no counterpart in the code *)
Definition set_po (x : pmaps) v := PM (pc x) (pr x) (pf x) (pn x) (pv x) v (pk x).

Lemma P_pc h p : pc (P h) !! p = core_of <$> hn h !! p.
Proof. apply lookup_fmap. Qed.
Lemma P_pr h p : pr (P h) !! p = n_rc <$> hn h !! p.
Proof. apply lookup_fmap. Qed.
Lemma P_pf h p : pf (P h) !! p = n_first <$> hn h !! p.
Proof. apply lookup_fmap. Qed.
Lemma P_pn h p : pn (P h) !! p = n_next <$> hn h !! p.
Proof. apply lookup_fmap. Qed.
Lemma P_pv h p : pv (P h) !! p = n_prev <$> hn h !! p.
Proof. apply lookup_fmap. Qed.

Lemma wp_get p (Q : ndata -> heap -> Prop) h c :
  pc (P h) !! p = Some c ->
  (forall n, core_of n = c -> pr (P h) !! p = Some (n_rc n) -> pf (P h) !! p = Some (n_first n) ->
     pn (P h) !! p = Some (n_next n) -> pv (P h) !! p = Some (n_prev n) -> Q n h) ->
  wp (h_get p) Q h.
Proof.
  rewrite P_pc. intros Hc HQ. unfold wp, h_get. destruct (hn h !! p) as [n|] eqn:E; [|done].
  injection Hc as Hc. apply HQ; [done|..]; by rewrite ?P_pr, ?P_pf, ?P_pn, ?P_pv, E.
Qed.

Ltac wp_mod_tac :=
  let E := fresh "E" in
  intros (?&Hc) HQ; rewrite P_pc in Hc; unfold wp, h_mod;
  match type of Hc with context [hn ?h !! ?p] => destruct (hn h !! p) as [n|] eqn:E; [|done] end;
  apply HQ; unfold P, set_pf, set_pn, set_pv, set_pr; simpl;
  f_equal; first [by eapply fmap_upd_same | by rewrite fmap_insert].
Lemma wp_set_first p v (Q : unit -> heap -> Prop) h :
  is_Some (pc (P h) !! p) -> (forall h', P h' = set_pf (P h) (<[p:=v]> (pf (P h))) -> Q () h') -> wp (h_mod p (set_first v)) Q h.
Proof. wp_mod_tac. Qed.
Lemma wp_set_next p v (Q : unit -> heap -> Prop) h :
  is_Some (pc (P h) !! p) -> (forall h', P h' = set_pn (P h) (<[p:=v]> (pn (P h))) -> Q () h') -> wp (h_mod p (set_next v)) Q h.
Proof. wp_mod_tac. Qed.
Lemma wp_set_prev p v (Q : unit -> heap -> Prop) h :
  is_Some (pc (P h) !! p) -> (forall h', P h' = set_pv (P h) (<[p:=v]> (pv (P h))) -> Q () h') -> wp (h_mod p (set_prev v)) Q h.
Proof. wp_mod_tac. Qed.
Lemma wp_set_rc p v (Q : unit -> heap -> Prop) h :
  is_Some (pc (P h) !! p) -> (forall h', P h' = set_pr (P h) (<[p:=v]> (pr (P h))) -> Q () h') -> wp (h_mod p (set_rc v)) Q h.
Proof. wp_mod_tac. Qed.
(** updates of the core fields *)
Lemma wp_set_core p f fc c (Q : unit -> heap -> Prop) h :
  pc (P h) !! p = Some c -> (forall n, core_of (f n) = fc (core_of n)) ->
  (forall n, n_rc (f n) = n_rc n /\ n_first (f n) = n_first n /\ n_next (f n) = n_next n /\ n_prev (f n) = n_prev n) ->
  (forall h', P h' = set_pc (P h) (<[p:=fc c]> (pc (P h))) -> Q () h') -> wp (h_mod p f) Q h.
Proof.
  intros Hc Hf Hr HQ. rewrite P_pc in Hc. unfold wp, h_mod. destruct (hn h !! p) as [n|] eqn:E; [|done].
  injection Hc as <-. apply HQ. unfold P, set_pc; simpl. destruct (Hr n) as (?&?&?&?).
  f_equal; try (by eapply fmap_upd_same). by rewrite fmap_insert, Hf.
Qed.
(** proof device, no counterpart in the code *)
Definition c_par v c := CO v (o_idx c) (o_grn c) (o_mut c) (o_off c).
(** proof device, no counterpart in the code *)
Definition c_idx v c := CO (o_par c) v (o_grn c) (o_mut c) (o_off c).
(** proof device, no counterpart in the code *)
Definition c_grn v c := CO (o_par c) (o_idx c) v (o_mut c) (o_off c).
(** proof device, no counterpart in the code *)
Definition c_off v c := CO (o_par c) (o_idx c) (o_grn c) (o_mut c) v.
Lemma wp_set_par p v c (Q : unit -> heap -> Prop) h :
  pc (P h) !! p = Some c -> (forall h', P h' = set_pc (P h) (<[p:=c_par v c]> (pc (P h))) -> Q () h') -> wp (h_mod p (set_par v)) Q h.
Proof. intros Hc. by eapply (wp_set_core p _ (c_par v)). Qed.
Lemma wp_set_idx p v c (Q : unit -> heap -> Prop) h :
  pc (P h) !! p = Some c -> (forall h', P h' = set_pc (P h) (<[p:=c_idx v c]> (pc (P h))) -> Q () h') -> wp (h_mod p (set_idx v)) Q h.
Proof. intros Hc. by eapply (wp_set_core p _ (c_idx v)). Qed.
Lemma wp_set_grn p v c (Q : unit -> heap -> Prop) h :
  pc (P h) !! p = Some c -> (forall h', P h' = set_pc (P h) (<[p:=c_grn v c]> (pc (P h))) -> Q () h') -> wp (h_mod p (set_grn v)) Q h.
Proof. intros Hc. by eapply (wp_set_core p _ (c_grn v)). Qed.

Lemma P_dom h : dom (pc (P h)) = dom (hn h).
Proof. apply dom_fmap_L. Qed.
Lemma P_some h p c : pc (P h) !! p = Some c ->
  exists r f n q, pr (P h) !! p = Some r /\ pf (P h) !! p = Some f /\ pn (P h) !! p = Some n /\ pv (P h) !! p = Some q.
Proof.
  rewrite P_pc, P_pr, P_pf, P_pn, P_pv. destruct (hn h !! p); [|done]. intros _. simpl. eauto 10.
Qed.
Lemma P_none h p : pc (P h) !! p = None ->
  pr (P h) !! p = None /\ pf (P h) !! p = None /\ pn (P h) !! p = None /\ pv (P h) !! p = None.
Proof. rewrite P_pc, P_pr, P_pf, P_pn, P_pv. by destruct (hn h !! p). Qed.
Lemma P_size h : size (hn h) = size (pc (P h)).
Proof. unfold P; simpl. by rewrite map_size_fmap. Qed.

(** proof device, no counterpart in the code *)
Definition del_pm (x : pmaps) (p : id) : pmaps :=
  PM (delete p (pc x)) (delete p (pr x)) (delete p (pf x)) (delete p (pn x)) (delete p (pv x)) (po x) (pk x).
Lemma wp_del p (Q : unit -> heap -> Prop) h : (forall h', P h' = del_pm (P h) p -> Q () h') -> wp (h_del p) Q h.
Proof. intros HQ. apply HQ. unfold P, del_pm; simpl. by rewrite !fmap_delete. Qed.
(** proof device, no counterpart in the code *)
Definition add_pm (x : pmaps) (p : id) (n : ndata) : pmaps :=
  PM (<[p:=core_of n]> (pc x)) (<[p:=n_rc n]> (pr x)) (<[p:=n_first n]> (pf x)) (<[p:=n_next n]> (pn x))
     (<[p:=n_prev n]> (pv x)) (po x) (S (pk x)).
Lemma wp_alloc env n (Q : id -> heap -> Prop) h :
  henv_ok env ->
  (forall p h', pc (P h) !! p = None -> P h' = add_pm (P h) p n -> Q p h') -> wp (h_alloc env n) Q h.
Proof.
  intros [He _] HQ. apply HQ.
  - apply not_elem_of_dom. rewrite P_dom. apply He.
  - unfold P, add_pm; simpl. by rewrite !fmap_insert.
Qed.

(** ** Pointer maps as functions *)
(** proof device, no counterpart in the code *)
Definition jn (m : gmap id (option id)) (x : id) : option id := mjoin (m !! x).
Lemma jn_insert m p v : jn (<[p:=v]> m) p = v.
Proof. unfold jn. by rewrite lookup_insert. Qed.
Lemma jn_insert_ne m p q v : p <> q -> jn (<[p:=v]> m) q = jn m q.
Proof. intros. unfold jn. by rewrite lookup_insert_ne. Qed.
Lemma jn_Some m x o : m !! x = Some o -> jn m x = o.
Proof. unfold jn. by intros ->. Qed.

(** ** The invariant *)
(** proof device, no counterpart in the code *)
Definition ix (c : gmap id core) (x : id) : nat := match c !! x with Some cx => o_idx cx | None => 0 end.

(** the tree structure; [K q] lists the live children of [q] *)
Record shape (c : gmap id core) (K : id -> list id) : Prop := {
  sh_child : forall x cx q, c !! x = Some cx -> o_par cx = Some q ->
    exists cq rel, c !! q = Some cq /\ o_mut cq = o_mut cx /\
      gchildren (o_grn cq) !! o_idx cx = Some (rel, o_grn cx) /\
      (o_mut cx = false -> o_off cx = (o_off cq + rel)%N);
  sh_root : forall x cx, c !! x = Some cx -> o_par cx = None -> o_mut cx = false -> o_off cx = 0%N;
  sh_K : forall q x, x ∈ K q <-> exists cx, c !! x = Some cx /\ o_par cx = Some q;
  sh_nodup : forall q, NoDup (K q);
  sh_sorted : forall q cq, c !! q = Some cq -> o_mut cq = true -> StronglySorted lt (map (ix c) (K q)) }.

(** strong references to greens: one per root node, [G] by others *)
Definition gr (c : gmap id core) (x : id) : green := match c !! x with Some cx => o_grn cx | None => GTok 0 0 [] end.
(** proof device, no counterpart in the code *)
Record owned (c : gmap id core) (R : list id) (o G : list green) : Prop := {
  on_R : forall x, x ∈ R <-> exists cx, c !! x = Some cx /\ o_par cx = None;
  on_nodup : NoDup R;
  on_perm : o ≡ₚ map (gr c) R ++ G;
  on_wf : Forall wfg o;
  on_coh : cohl o }.

(** sibling lists of mutable nodes *)
Record links (c : gmap id core) (K : id -> list id) (f n q : gmap id (option id)) : Prop := {
  lk_mut : forall p cp, c !! p = Some cp -> o_mut cp = true -> f !! p = Some (head (K p)) /\ circ (jn n) (jn q) (K p);
  lk_root : forall p cp, c !! p = Some cp -> o_mut cp = true -> o_par cp = None -> n !! p = Some (Some p) /\ q !! p = Some (Some p);
  lk_imm : forall p cp, c !! p = Some cp -> o_mut cp = false -> f !! p = Some None }.

(** reference counts: [H] lists the handles, with repetition *)
Definition cnt (x : id) (H : list id) : nat := length (filter (fun y => y = x) H).
(** proof device, no counterpart in the code *)
Record counts (c : gmap id core) (r : gmap id nat) (K : id -> list id) (H : list id) (dead : option id) : Prop := {
  ct_rc : forall x, is_Some (c !! x) -> r !! x = Some (cnt x H + length (K x));
  ct_live : forall x, is_Some (c !! x) -> cnt x H + length (K x) = 0 -> dead = Some x;
  ct_dead : forall x, dead = Some x -> is_Some (c !! x) /\ cnt x H + length (K x) = 0;
  ct_H : forall x, x ∈ H -> is_Some (c !! x) }.

(** proof device, no counterpart in the code *)
Definition invK (x : pmaps) (K : id -> list id) (R : list id) (H : list id) (G : list green) (dead : option id) : Prop :=
  shape (pc x) K /\ owned (pc x) R (po x) G /\ links (pc x) K (pf x) (pn x) (pv x) /\ counts (pc x) (pr x) K H dead.
(** proof device, no counterpart in the code *)
Definition inv (h : heap) (H : list id) (G : list green) : Prop := exists K R, invK (P h) K R H G None.

Lemma cnt_cons x y H : cnt x (y :: H) = (if bool_decide (y = x) then 1 else 0) + cnt x H.
Proof. unfold cnt. rewrite filter_cons. case_decide; case_bool_decide; done. Qed.
Lemma cnt_app x H1 H2 : cnt x (H1 ++ H2) = cnt x H1 + cnt x H2.
Proof. unfold cnt. by rewrite filter_app, app_length. Qed.
Lemma cnt_perm x H1 H2 : H1 ≡ₚ H2 -> cnt x H1 = cnt x H2.
Proof. unfold cnt. intros E. by rewrite E. Qed.
Lemma cnt_pos x H : 0 < cnt x H <-> x ∈ H.
Proof.
  induction H as [|y H IH]; [unfold cnt; simpl; split; [lia|by intros ?%elem_of_nil]|].
  rewrite cnt_cons, elem_of_cons, <- IH. case_bool_decide as E; split; intros; naive_solver lia.
Qed.

(** ** Where a node is: its root and the path from there *)
(** proof device, no counterpart in the code *)
Inductive loc (c : gmap id core) : id -> id -> pos -> Prop :=
| loc_root x cx : c !! x = Some cx -> o_par cx = None -> loc c x x []
| loc_child x cx q r p : c !! x = Some cx -> o_par cx = Some q -> loc c q r p -> loc c x r (p ++ [o_idx cx]).
(** what a handle shows, as a value of the cursor model *)
Definition view (c : gmap id core) (x : id) (cur : cursor) : Prop :=
  exists r p, loc c x r p /\ cursor_at (gr c r) p = Some cur.

Ltac psimp H := cbv beta delta [set_pc set_pr set_pf set_pn set_pv set_po add_pm del_pm] in H; cbn [pc pr pf pn pv po pk] in H.
Ltac psimpg := cbv beta delta [set_pc set_pr set_pf set_pn set_pv set_po add_pm del_pm]; cbn [pc pr pf pn pv po pk].

(** ** Greens and reference counts *)
Lemma live_addr L g : live L g -> gaddr g ∈ live_addrs L.
Proof.
  intros (x&p&Hx&Hp). unfold live_addrs. apply elem_of_concat. exists (gaddrs x). split; [apply elem_of_map; eauto|].
  apply elem_of_gaddrs. eauto.
Qed.
Lemma addr_live L a : a ∈ live_addrs L -> exists g, live L g /\ gaddr g = a.
Proof.
  intros (l&Hl&Ha)%elem_of_concat. apply elem_of_map in Hl as (x&->&Hx). apply elem_of_gaddrs in Ha as (p&y&Hp&Hy).
  exists y. split; [by exists x, p|done].
Qed.
Lemma wp_green_of p cx (Q : green -> heap -> Prop) h :
  pc (P h) !! p = Some cx -> live (po (P h)) (o_grn cx) -> Q (o_grn cx) h -> wp (h_green p) Q h.
Proof.
  rewrite P_pc. intros Hx Hl HQ. unfold wp, h_green. destruct (hn h !! p) as [n|]; [|done].
  injection Hx as <-. unfold g_live. rewrite bool_decide_eq_true_2; [done|]. by apply live_addr.
Qed.
Lemma wp_green_own g (Q : unit -> heap -> Prop) h :
  live (po (P h)) g -> (forall h', P h' = set_po (P h) (g :: po (P h)) -> Q () h') -> wp (h_green_own g) Q h.
Proof.
  intros Hl HQ. unfold wp, h_green_own, g_live. rewrite bool_decide_eq_true_2 by (by apply live_addr). by apply HQ.
Qed.
Lemma remove_addr_perm a l l' : remove_addr a l = Some l' -> exists g, l ≡ₚ g :: l' /\ gaddr g = a.
Proof.
  revert l'. induction l as [|x l IH]; intros l'; simpl; [done|].
  destruct (Nat.eqb_spec (gaddr x) a).
  - intros [= ->]. eauto.
  - destruct (remove_addr a l) as [k|]; simpl; [|done]. intros [= <-]. destruct (IH _ eq_refl) as (g&Hg&Ha).
    exists g. split; [|done]. rewrite Hg. apply Permutation_swap.
Qed.
Lemma remove_addr_some a l g : g ∈ l -> gaddr g = a -> exists l', remove_addr a l = Some l'.
Proof.
  intros Hg Ha. induction l as [|x l IH]; [by apply elem_of_nil in Hg|]. simpl.
  destruct (Nat.eqb_spec (gaddr x) a); [eauto|].
  apply elem_of_cons in Hg as [->|Hg]; [done|]. destruct (IH Hg) as [k ->]. simpl. eauto.
Qed.
(** dropping one reference of a coherent list *)
Lemma remove_owned o g : cohl o -> g ∈ o -> exists o', remove_addr (gaddr g) o = Some o' /\ o ≡ₚ g :: o'.
Proof.
  intros Hc Hg. destruct (remove_addr_some _ _ _ Hg eq_refl) as [o' Ho']. exists o'. split; [done|].
  destruct (remove_addr_perm _ _ _ Ho') as (g'&Hp&Ha). assert (g' = g) as ->; [|done].
  apply Hc; [|by apply live_elem|done]. apply live_elem. rewrite Hp. left.
Qed.
Lemma wp_green_drop g (Q : unit -> heap -> Prop) h :
  cohl (po (P h)) -> g ∈ po (P h) -> (forall h' o', P h' = set_po (P h) o' -> po (P h) ≡ₚ g :: o' -> Q () h') ->
  wp (h_green_drop g) Q h.
Proof.
  intros Hc Hg HQ. destruct (remove_owned _ _ Hc Hg) as (o'&Ho'&Hp). unfold wp, h_green_drop.
  change (ow h) with (po (P h)). rewrite Ho'. by eapply HQ.
Qed.

Lemma wp_inc p cx (Q : unit -> heap -> Prop) h : pc (P h) !! p = Some cx ->
  (forall h' n, pr (P h) !! p = Some n -> P h' = set_pr (P h) (<[p:=S n]> (pr (P h))) -> Q () h') -> wp (h_inc_rc p) Q h.
Proof.
  rewrite P_pc. intros Hx HQ. unfold wp, h_inc_rc, h_mod. destruct (hn h !! p) as [n|] eqn:E; [|done].
  apply (HQ _ (n_rc n)); [by rewrite P_pr, E|]. unfold P, set_pr; simpl.
  f_equal; first [by eapply fmap_upd_same | by rewrite fmap_insert].
Qed.
Lemma wp_dec p cx n (Q : bool -> heap -> Prop) h : pc (P h) !! p = Some cx -> pr (P h) !! p = Some (S n) ->
  (forall h', P h' = set_pr (P h) (<[p:=n]> (pr (P h))) -> Q (n =? 0) h') -> wp (h_dec_rc p) Q h.
Proof.
  intros Hx Hr HQ. apply wp_bind. eapply wp_get; [exact Hx|]. intros nd _ Hrc _ _ _.
  assert (n_rc nd = S n) as -> by congruence. apply wp_bind. eapply wp_set_rc; [eauto|]. intros h' E'. apply wp_ret. auto.
Qed.
Lemma P_po h : po (P h) = ow h.
Proof. done. Qed.
Lemma P_pk h : pk (P h) = ck h.
Proof. done. Qed.
Global Opaque P.
