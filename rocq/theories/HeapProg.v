(** * Client programs on the heap *)
From Verif Require Export HeapLoop.

(** ** The client *)
(** the client's variables: handles and green elements; [None]: moved out or dropped *)
(** the variables of a client; no counterpart in the code *)
Record hst := HS { h_handles : list (option id); h_greens : list (option green) }.
(** the variables of a client; no counterpart in the code *)
Definition h_init : hst := HS [] [].
(** helper: reading, adding and using up variables *)
Definition h_slot {A} (o : option (option A)) : hm A := match o with Some (Some a) => mret a | _ => hpanic end.
(** helper: reading, adding and using up variables *)
Definition hadd (o : option id) (hs : hst) : hst := HS (h_handles hs ++ [o]) (h_greens hs).
(** helper: reading, adding and using up variables *)
Definition hdel (s : nat) (hs : hst) : hst := HS (<[s:=None]> (h_handles hs)) (h_greens hs).
(** helper: reading, adding and using up variables *)
Definition hgadd (g : green) (hs : hst) : hst := HS (h_handles hs) (h_greens hs ++ [Some g]).
(** helper: reading, adding and using up variables *)
Definition hgdel (g : nat) (hs : hst) : hst := HS (h_handles hs) (<[g:=None]> (h_greens hs)).

Section build.
Context {bld : build}.
(** one call; the functions of cursor.rs are cited where they are defined *)
(** one call by a client, on the node heap; the cases cite their functions in Heap.v *)
Definition hstep (env : henv) (o : op) (hs : hst) : hm (hst * obs) :=
  match o with
  | OGreenToken k s => g ← h_green_build env (fun a => Ok (green_token_new a k s)) None; mret (hgadd g hs, None)
  | OGreenNode k els =>
      match mapM (fun g => mjoin (h_greens hs !! g)) els with
      | Some gs => g ← h_green_build env (fun a => green_new bld a k gs) None; mret (hgadd g hs, None)
      | None => hpanic
      end
  | OGreenDrop g => x ← h_slot (h_greens hs !! g); _ ← h_green_drop x; mret (hgdel g hs, None)
  | ORoot m g =>
      x ← h_slot (h_greens hs !! g);
      _ ← h_green_own x;
      y ← (if m then h_new_root_mut env x else h_new_root env x);
      mret (hadd (Some y) hs, None)
  | OGreen s => x ← h_slot (h_handles hs !! s); g ← h_green x; _ ← h_green_own g; mret (hgadd g hs, None)
  | OClone s => x ← h_slot (h_handles hs !! s); y ← h_clone x; mret (hadd (Some y) hs, None)
  | ODrop s => x ← h_slot (h_handles hs !! s); _ ← h_drop x; mret (hdel s hs, None)
  | ONav n s => x ← h_slot (h_handles hs !! s); y ← h_nav env n x; mret (hadd y hs, None)
  | OToNext tok s => x ← h_slot (h_handles hs !! s); y ← h_to_next_any env tok x; mret (hadd y (hdel s hs), None)
  | OCloneForUpdate s => x ← h_slot (h_handles hs !! s); y ← h_clone_for_update env x; mret (hadd (Some y) hs, None)
  | OCloneSubtree s => x ← h_slot (h_handles hs !! s); y ← h_clone_subtree env x; mret (hadd (Some y) hs, None)
  | ODetach s => x ← h_slot (h_handles hs !! s); _ ← h_detach env x; mret (hs, None)
  | OSplice s a b ins =>
      x ← h_slot (h_handles hs !! s);
      match mapM (fun c => mjoin (h_handles hs !! c)) ins with
      | Some ys => _ ← h_splice_children env x a b ys; mret (foldl (fun hs c => hdel c hs) hs ins, None)
      | None => hpanic
      end
  | ODetachKids tok s =>
      x ← h_slot (h_handles hs !! s);
      g ← h_green x;
      it ← h_children_new x;
      _ ← h_detach_loop env (h_kids_next env tok) (fun _ => true) (S (length (gchildren g))) 0 it;
      mret (hs, None)
  | ODetachByKind tok m s =>
      x ← h_slot (h_handles hs !! s);
      g ← h_green x;
      nx ← h_by_kind_new env tok m x;
      _ ← h_by_kind_detach_loop env tok m (S (length (gchildren g))) nx;
      mret (hs, None)
  | OLook s => x ← h_slot (h_handles hs !! s); l ← h_look x; mret (hs, Some l)
  | OAtRange a b s => x ← h_slot (h_handles hs !! s); y ← h_child_or_token_at_range env x (TR a b); mret (hadd y hs, None)
  | OGreenSplice a b els g =>
      x ← h_slot (h_greens hs !! g);
      _ ← h_green_read x;
      match mapM (fun g => mjoin (h_greens hs !! g)) els with
      | Some gs =>
          g' ← h_green_build env (fun ad => green_splice_children bld ad x (Included a) (Excluded b) gs) None;
          mret (hgadd g' hs, None)
      | None => hpanic
      end
  | OGreenReplace i e g =>
      x ← h_slot (h_greens hs !! g);
      _ ← h_green_read x;
      y ← h_slot (h_greens hs !! e);
      g' ← h_green_build env (fun ad => green_replace_child bld ad x i y) None;
      mret (hgadd g' hs, None)
  | OGreenChild i g =>
      x ← h_slot (h_greens hs !! g);
      _ ← h_green_read x;
      match map snd (gchildren x) !! i with
      | Some y => _ ← h_green_own y; mret (hgadd y hs, None)
      | None => hpanic
      end
  | OGreenLook g =>
      x ← h_slot (h_greens hs !! g);
      _ ← h_green_read x;
      len ← lift (green_text_len x);
      mret (hs, Some (Look false None (gkind x) (0%N, len) (erase x)))
  end.
(** a client that makes a list of calls *)
Fixpoint hrun (env : henv) (prog : list op) (hs : hst) : hm (hst * list obs) :=
  match prog with
  | [] => mret (hs, [])
  | o :: prog' => '(hs, x) ← hstep env o hs; '(hs, xs) ← hrun env prog' hs; mret (hs, x :: xs)
  end.

(** a client that starts with nothing *)
Definition client (env : henv) (prog : list op) : res (hst * list obs) * heap := hrun env prog h_init (HP ∅ [] 0).
End build.

(** ** Meeting the specification *)
(** proof device, no counterpart in the code *)
Definition meets {A B} (s : sres A) (m : hm B) (Q : A -> B -> heap -> Prop) (h : heap) : Prop :=
  match s with
  | SOk a => wp m (Q a) h
  | SPanic => (m h).1 = Err Panic
  | SStuck => (m h).1 = Err Panic \/ (m h).1 = Err Diverge
  | SIll => True
  end.
Lemma meets_bind {A B C D} (s : sres A) (f : A -> sres C) (m : hm B) (g : B -> hm D) Q R h :
  meets s m Q h -> (forall a b h', Q a b h' -> meets (f a) (g b) R h') -> meets (s ≫= f) (m ≫= g) R h.
Proof.
  intros H1 H2. unfold meets in H1. destruct s as [a| | |]; simpl.
  - apply wp_ok in H1 as (b&h'&E&HQ). specialize (H2 a b h' HQ). unfold meets in *. destruct (f a); [by apply wp_bind; unfold wp at 1; rewrite E| | |done];
      unfold mbind, hm_bind; by rewrite E.
  - unfold mbind, hm_bind. destruct (m h) as [[b|e] h']; simpl in *; [done|]. by injection H1 as ->.
  - unfold mbind, hm_bind. destruct (m h) as [[b|e] h']; simpl in *; [by destruct H1|]. destruct H1 as [H1|H1]; injection H1 as ->; auto.
  - done.
Qed.
Lemma meets_wp {B C D} (f : sres C) (m : hm B) (g : B -> hm D) (Q : B -> heap -> Prop) (R : C -> D -> heap -> Prop) h :
  wp m Q h -> (forall b h', Q b h' -> meets f (g b) R h') -> meets f (m ≫= g) R h.
Proof. intros H1 H2. exact (meets_bind (SOk ()) (fun _ => f) m g (fun _ => Q) R h H1 (fun _ => H2)). Qed.
Lemma meets_slot {A B C} (o : option (option A)) (f : A -> sres C) (m : hm B) Q h :
  (forall a, o = Some (Some a) -> meets (f a) m Q h) -> meets (of_slot o ≫= f) m Q h.
Proof. intros H. destruct o as [[a|]|]; simpl; [by apply H|done|done]. Qed.
Lemma meets_ill {B C} (b : bool) (f : unit -> sres C) (m : hm B) Q h :
  (b = true -> meets (f ()) m Q h) -> meets (ill_unless b ≫= f) m Q h.
Proof. intros H. destruct b; simpl; [by apply H|done]. Qed.
Lemma meets_elem {B C} st hh (f : bool * tree -> sres C) (m : hm B) Q h :
  (forall mu t x, s_trees st !! hh.1 = Some (mu, t) -> tsub t hh.2 = Some x -> meets (f (mu, x)) m Q h) -> meets (s_elem st hh ≫= f) m Q h.
Proof. intros H. unfold s_elem. destruct (s_trees st !! hh.1) as [[mu t]|]; simpl; [|done]. destruct (tsub t hh.2) eqn:E; simpl; [by eapply H|done]. Qed.
Lemma meets_mono {A B} (s : sres A) (m : hm B) (Q R : A -> B -> heap -> Prop) h :
  meets s m Q h -> (forall a b h', Q a b h' -> R a b h') -> meets s m R h.
Proof. intros H1 H2. destruct s; simpl in *; try done. eapply wp_mono; [exact H1|]. auto. Qed.

(** ** Slots *)
(** proof device, no counterpart in the code *)
Fixpoint somes {A} (l : list (option A)) : list A := match l with [] => [] | Some a :: l => a :: somes l | None :: l => somes l end.
Lemma somes_app {A} (l k : list (option A)) : somes (l ++ k) = somes l ++ somes k.
Proof. induction l as [|[]]; simpl; congruence. Qed.
Lemma slot_take {A} (l : list (option A)) i a : l !! i = Some (Some a) -> somes l ≡ₚ a :: somes (<[i:=None]> l).
Proof.
  revert i. induction l as [|o l IH]; intros [|i] Hl; try done; simpl in *.
  - injection Hl as ->. done.
  - destruct o; simpl; [|by apply IH]. rewrite (IH i Hl). apply Permutation_swap.
Qed.
Lemma slot_elem {A} (l : list (option A)) i a : l !! i = Some (Some a) -> a ∈ somes l.
Proof. intros H. rewrite (slot_take _ _ _ H). left. Qed.
Lemma elem_slot {A} (l : list (option A)) a : a ∈ somes l <-> Some a ∈ l.
Proof. induction l as [|[b|] l IH]; simpl; rewrite ?elem_of_cons, ?elem_of_nil, ?IH; naive_solver. Qed.
Lemma lookup_map_fmap {A B} (f : A -> B) (l : list (option A)) i b :
  map (fmap f) l !! i = Some (Some b) -> exists a, l !! i = Some (Some a) /\ b = f a.
Proof. rewrite (list_lookup_fmap (fmap f)). destruct (l !! i) as [[a|]|]; simpl; try done. intros [= <-]. eauto. Qed.
Lemma lookup_map_some {A B} (f : A -> B) (l : list (option A)) i a : l !! i = Some (Some a) -> map (fmap f) l !! i = Some (Some (f a)).
Proof. intros H. by rewrite (list_lookup_fmap (fmap f)), H. Qed.
Lemma map_fmap_insert {A B} (f : A -> B) (l : list (option A)) i : map (fmap f) (<[i:=None]> l) = <[i:=None]> (map (fmap f) l).
Proof. by rewrite (list_fmap_insert (fmap f)). Qed.

(** ** The relation *)
(** proof device, no counterpart in the code *)
Definition moved (f : nat * pos -> nat * pos) (z : hpos) : hpos := (z.1, f z.2).
(** proof device, no counterpart in the code *)
Record sim (st : sst) (hs : hst) (zs : list (option hpos)) (lk Zx : list hpos) (h : heap) : Prop := {
  sm_handles : h_handles hs = map (fmap fst) zs;
  sm_pos : s_handles st = map (fmap snd) zs;
  sm_greens : s_greens st = map (fmap erase) (h_greens hs);
  sm_leaked : s_leaked st = map (fun z : hpos => z.2.1) lk;
  sm_leak_nodup : NoDup (s_leaked st);
  sm_leak_root : forall z, z ∈ lk -> z.2.2 = [] /\ exists t, s_trees st !! z.2.1 = Some (false, t);
  sm_leak_alone : forall z u, z ∈ somes zs -> u ∈ lk -> z.2.1 <> u.2.1;
  sm_sim : simH h (s_trees st) (Zx ++ somes zs ++ lk) (somes (h_greens hs)) }.
(** proof device, no counterpart in the code *)
Definition simulates (st : sst) (hs : hst) (h : heap) : Prop := exists zs lk, sim st hs zs lk [] h.


Lemma inv_empty n : inv (HP ∅ [] n) [] [].
Proof.
  assert (Hc : forall x, pc (P (HP ∅ [] n)) !! x = None) by (intros x; by rewrite P_pc).
  exists (fun _ => []), []. split_and!; constructor; try (intros x y Hx; rewrite Hc in Hx; done); try (intros x y z Hx; rewrite Hc in Hx; done).
  - intros q x. split; [by intros ?%elem_of_nil|]. intros (cx&Hx&_). by rewrite Hc in Hx.
  - intros. constructor.
  - intros x. split; [by intros ?%elem_of_nil|]. intros (cx&Hx&_). by rewrite Hc in Hx.
  - constructor.
  - done.
  - constructor.
  - by intros x y (a&q&Ha%elem_of_nil&_).
  - intros x (cx&Hx). by rewrite Hc in Hx.
  - intros x (cx&Hx). by rewrite Hc in Hx.
  - done.
  - by intros x ?%elem_of_nil.
Qed.
Lemma simulates_init n : simulates s_init h_init (HP ∅ [] n).
Proof.
  exists [], []. constructor; try done; try (by intros ? ?%elem_of_nil); try (by intros ? ? ?%elem_of_nil).
  - constructor.
  - split; [apply inv_empty|]. split; [by intros ? ?%elem_of_nil|by intros ? ? ? ? ?%elem_of_nil].
Qed.

Section prog.
Context (env : henv) (Henv : henv_ok env).

Lemma sim_slot st hs zs lk Zx h s hh : sim st hs zs lk Zx h -> s_handles st !! s = Some (Some hh) ->
  exists z, zs !! s = Some (Some z) /\ hh = z.2 /\ h_handles hs !! s = Some (Some z.1) /\ z ∈ Zx ++ somes zs ++ lk.
Proof.
  intros [Hh Hp _ _ _ _ _ _] Hs. rewrite Hp in Hs. apply lookup_map_fmap in Hs as (z&Hz&->). exists z. split_and!; try done.
  - rewrite Hh, (list_lookup_fmap (fmap fst)), Hz. done.
  - apply elem_of_app. right. apply elem_of_app. left. by eapply slot_elem.
Qed.
Lemma sim_gslot st hs zs lk Zx h s t : sim st hs zs lk Zx h -> s_greens st !! s = Some (Some t) ->
  exists g, h_greens hs !! s = Some (Some g) /\ erase g = t /\ g ∈ somes (h_greens hs).
Proof.
  intros [_ _ Hg _ _ _ _ _] Hs. rewrite Hg in Hs. apply lookup_map_fmap in Hs as (g&Hz&->). exists g. split_and!; try done.
  by eapply slot_elem.
Qed.

(** ** New variables *)
Lemma sim_add_green st hs zs lk Zx h h' g t : sim st hs zs lk Zx h -> erase g = t ->
  simH h' (s_trees st) (Zx ++ somes zs ++ lk) (g :: somes (h_greens hs)) -> sim (add_green t st) (hgadd g hs) zs lk Zx h'.
Proof.
  intros [] He HS. constructor; try done; simpl.
  - rewrite map_app. by rewrite sm_greens0, <- He.
  - eapply simH_G; [|exact HS]. rewrite somes_app. simpl. apply Permutation_cons_append.
Qed.
Lemma sim_del_green st hs zs lk Zx h h' i : sim st hs zs lk Zx h ->
  simH h' (s_trees st) (Zx ++ somes zs ++ lk) (somes (<[i:=None]> (h_greens hs))) ->
  sim (SS (s_trees st) (s_handles st) (<[i:=None]> (s_greens st)) (s_leaked st)) (hgdel i hs) zs lk Zx h'.
Proof. intros [] HS. constructor; try done; simpl. by rewrite map_fmap_insert, sm_greens0. Qed.
(** a handle in a tree that is not leaked *)
Lemma sim_add_handle st hs zs lk h h' (o : option hpos) : sim st hs zs lk [] h ->
  (forall z u, o = Some z -> u ∈ lk -> z.2.1 <> u.2.1) ->
  simH h' (s_trees st) (option_list o ++ somes zs ++ lk) (somes (h_greens hs)) ->
  sim (add_handle (snd <$> o) st) (hadd (fst <$> o) hs) (zs ++ [o]) lk [] h'.
Proof.
  intros [] Hlk HS. constructor; try done; simpl.
  - by rewrite map_app, sm_handles0.
  - by rewrite map_app, sm_pos0.
  - intros z u. rewrite somes_app. intros [Hz|Hz]%elem_of_app Hu; [by apply sm_leak_alone0|]. simpl in Hz.
    destruct o as [z'|]; simpl in Hz; [|by apply elem_of_nil in Hz]. apply elem_of_list_singleton in Hz as ->. by apply Hlk.
  - eapply simH_perm; [|exact HS]. rewrite somes_app, <- app_assoc, Permutation_app_swap_app.
    apply Permutation_app_head. simpl. by destruct o.
Qed.
Lemma sim_add_tree st hs zs lk h h' m t y p : sim st hs zs lk [] h ->
  simH h' (s_trees st ++ [(m, t)]) ((y, (length (s_trees st), p)) :: somes zs ++ lk) (somes (h_greens hs)) ->
  sim (add_handle (Some (length (s_trees st), p)) (add_tree m t st)) (hadd (Some y) hs) (zs ++ [Some (y, (length (s_trees st), p))]) lk [] h'.
Proof.
  intros [] HS. constructor; try done; simpl.
  - by rewrite map_app, sm_handles0.
  - by rewrite map_app, sm_pos0.
  - intros z Hz. destruct (sm_leak_root0 z Hz) as (E&t'&Ht). split; [done|]. exists t'. by apply lookup_app_l_Some.
  - intros z u. rewrite somes_app. intros [Hz|Hz]%elem_of_app Hu; [by apply sm_leak_alone0|]. simpl in Hz.
    apply elem_of_list_singleton in Hz as ->. simpl. destruct (sm_leak_root0 u Hu) as (_&t'&Ht). apply lookup_lt_Some in Ht.
    exact (not_eq_sym (Nat.lt_neq _ _ Ht)).
  - eapply simH_perm; [|exact HS]. rewrite somes_app, <- app_assoc. simpl. apply Permutation_middle.
Qed.
Lemma sim_del_handle st hs zs lk Zx h h' s : sim st hs zs lk Zx h ->
  simH h' (s_trees st) (Zx ++ somes (<[s:=None]> zs) ++ lk) (somes (h_greens hs)) ->
  sim (del_handle s st) (hdel s hs) (<[s:=None]> zs) lk Zx h'.
Proof.
  intros [] HS. constructor; try done; simpl.
  - by rewrite map_fmap_insert, sm_handles0.
  - by rewrite map_fmap_insert, sm_pos0.
  - intros z u Hz Hu. apply sm_leak_alone0; [|done]. apply elem_slot in Hz. apply elem_slot.
    apply elem_of_list_lookup in Hz as (i&Hi). destruct (decide (i = s)) as [->|]; [|rewrite list_lookup_insert_ne in Hi by done; by apply elem_of_list_lookup_2 in Hi].
    pose proof (lookup_lt_Some _ _ _ Hi) as Hlt. rewrite insert_length in Hlt. rewrite list_lookup_insert in Hi by done. done.
Qed.

(** ** Moving all handles *)
Lemma somes_moved f zs : somes (map (fmap (moved f)) zs) = map_pos f (somes zs).
Proof. induction zs as [|[z|] zs IH]; simpl; [done|by rewrite <- IH|done]. Qed.
Lemma map_pos_app f Z Z' : map_pos f (Z ++ Z') = map_pos f Z ++ map_pos f Z'.
Proof. apply map_app. Qed.
Lemma map_pos_id f Z : (forall z, z ∈ Z -> f z.2 = z.2) -> map_pos f Z = Z.
Proof.
  intros H. unfold map_pos. transitivity (map (fun u => u) Z); [|apply map_id]. apply map_ext_in. intros [x p] Hz. f_equal. exact (H (x, p) Hz).
Qed.
Lemma sim_move st hs zs lk Zx h h' f T' : sim st hs zs lk Zx h ->
  (forall z, z ∈ lk -> f z.2 = z.2) -> (forall n t, s_trees st !! n = Some (false, t) -> exists t', T' !! n = Some (false, t')) ->
  (forall z u, z ∈ somes zs -> u ∈ lk -> z.2.1 <> u.2.1 -> (f z.2).1 <> u.2.1) ->
  simH h' T' (map_pos f (Zx ++ somes zs ++ lk)) (somes (h_greens hs)) ->
  sim (SS T' (move_handles f (s_handles st)) (s_greens st) (s_leaked st)) hs (map (fmap (moved f)) zs) lk (map_pos f Zx) h'.
Proof.
  intros [] Hlk HT Hal HS. constructor; try done; simpl.
  - rewrite map_map, sm_handles0. apply map_ext. by intros [].
  - unfold move_handles. rewrite sm_pos0, !map_map. apply map_ext. by intros [].
  - intros z Hz. destruct (sm_leak_root0 z Hz) as (E&t&Ht). split; [done|]. by eapply HT.
  - intros z u. rewrite somes_moved, elem_of_map_pos. intros (z'&->&Hz') Hu. simpl. apply Hal; auto.
  - rewrite somes_moved. rewrite !map_pos_app in HS. by rewrite (map_pos_id _ lk) in HS.
Qed.

(** ** Detach *)
(** where the handles go *)
(** proof device, no counterpart in the code *)
Definition detach_moves (hh : nat * pos) (st : sst) : nat * pos -> nat * pos :=
  match last hh.2 with
  | None => fun u => u
  | Some i => detach_handle hh.1 (length (s_trees st)) (removelast hh.2) i
  end.
Lemma last_split (p : pos) i : last p = Some i -> p = removelast p ++ [i].
Proof. intros H. destruct p as [|a p _] using rev_ind; [done|]. rewrite last_snoc in H. injection H as <-. by rewrite removelast_last. Qed.
Lemma last_none_nil (p : pos) : last p = None -> p = [].
Proof. apply last_None. Qed.

Lemma sim_detach_move st hs zs lk Zx h h' (n : nat) t (p : pos) i x : sim st hs zs lk Zx h ->
  s_trees st !! n = Some (true, t) ->
  simH h' (<[n:=(true, tdelete_child t p i)]> (s_trees st) ++ [(true, x)])
    (map_pos (detach_handle n (length (s_trees st)) p i) (Zx ++ somes zs ++ lk)) (somes (h_greens hs)) ->
  sim (SS (<[n:=(true, tdelete_child t p i)]> (s_trees st) ++ [(true, x)])
          (move_handles (detach_handle n (length (s_trees st)) p i) (s_handles st)) (s_greens st) (s_leaked st))
      hs (map (fmap (moved (detach_handle n (length (s_trees st)) p i))) zs) lk
      (map_pos (detach_handle n (length (s_trees st)) p i) Zx) h'.
Proof.
  intros Hsim HT HS. eapply sim_move; [exact Hsim|..|exact HS].
  - intros z Hz. destruct (sm_leak_root _ _ _ _ _ _ Hsim z Hz) as (_&t'&Ht). destruct z as [x' [n' p']]. unfold detach_handle. simpl in *.
    destruct (Nat.eqb_spec n' n) as [->|]; [congruence|done].
  - intros n' t' Ht'. exists t'. apply lookup_app_l_Some. rewrite list_lookup_insert_ne; [done|]. intros ->. congruence.
  - intros z u Hz Hu Hne. destruct (sm_leak_root _ _ _ _ _ _ Hsim u Hu) as (_&t'&Ht). pose proof (not_eq_sym (Nat.lt_neq _ _ (lookup_lt_Some _ _ _ Ht))).
    destruct z as [x' [n' p']], u as [xu [nu pu]]. unfold detach_handle. simpl in *.
    destruct (Nat.eqb_spec n' n) as [E|]; [|done]. destruct (pos_removed p i p'); simpl; [done|congruence].
Qed.
Lemma sim_do_detach st hs zs lk Zx h z : sim st hs zs lk Zx h -> z ∈ Zx ++ somes zs ++ lk ->
  meets (s_detach z.2 st) (h_detach env z.1)
    (fun st' _ h' => sim st' hs (map (fmap (moved (detach_moves z.2 st))) zs) lk (map_pos (detach_moves z.2 st) Zx) h') h.
Proof using Henv.
  intros Hsim Hz. unfold s_detach. destruct (s_trees st !! z.2.1) as [[m t]|] eqn:HT; [|done].
  pose proof (sm_sim _ _ _ _ _ _ Hsim) as HS. destruct m; simpl.
  - unfold detach_moves. destruct (last z.2.2) as [i|] eqn:El.
    + destruct (tsub t z.2.2) as [x|] eqn:Hx; [|done]. simpl. eapply wp_mono; [eapply (sim_detach env Henv _ _ _ _ z t (removelast z.2.2) i x); try done; by apply last_split|].
      intros [] h' HS'. by eapply sim_detach_move.
    + eapply wp_mono; [eapply sim_detach_root; try done; by apply last_none_nil|]. intros [] h' HS'.
      assert (map (fmap (moved (fun u => u))) zs = zs) as ->. { transitivity (map (fun u => u) zs); [|apply map_id]. apply map_ext. by intros [[]|]. }
      rewrite map_pos_id by done. destruct Hsim. by constructor.
  - by rewrite (sim_detach_imm env _ _ _ _ _ _ HS Hz HT).
Qed.

(** ** Attach *)
Lemma slot_moved f zs s (z : hpos) : zs !! s = Some (Some z) -> map (fmap (moved f)) zs !! s = Some (Some (moved f z)).
Proof. intros Hz. by rewrite (list_lookup_fmap (fmap (moved f))), Hz. Qed.
Lemma sim_pos_slot st hs zs lk Zx h s (z : hpos) : sim st hs zs lk Zx h -> zs !! s = Some (Some z) -> s_handles st !! s = Some (Some z.2).
Proof. intros Hsim Hz. rewrite (sm_pos _ _ _ _ _ _ Hsim). exact (lookup_map_some snd zs s z Hz). Qed.
(** mutability moves along *)
Lemma detach_moves_mut hh st st' m h0 : s_detach hh st = SOk st' ->
  (exists t, s_trees st !! h0.1 = Some (m, t)) -> exists t, s_trees st' !! (detach_moves hh st h0).1 = Some (m, t).
Proof.
  unfold s_detach, detach_moves. destruct (s_trees st !! hh.1) as [[mh t]|] eqn:HT; [|done]. destruct mh; simpl; [|done].
  destruct (last hh.2) as [i|]; [|by intros [= <-]]. destruct (tsub t hh.2) as [x|]; [|done]. intros [= <-] (t0&H0). simpl.
  pose proof (lookup_lt_Some _ _ _ HT) as Hlt. destruct h0 as [n0 p0]. unfold detach_handle. simpl in *. destruct (Nat.eqb_spec n0 hh.1) as [->|Hne].
  - assert (m = true) as -> by congruence. destruct (pos_removed (removelast hh.2) i p0); simpl.
    + exists x. rewrite lookup_app_r by (by rewrite insert_length). by rewrite insert_length, Nat.sub_diag.
    + eexists. apply lookup_app_l_Some. by apply list_lookup_insert.
  - exists t0. apply lookup_app_l_Some. by rewrite list_lookup_insert_ne.
Qed.
Lemma detach_moves_self hh st : (detach_moves hh st hh).2 = [].
Proof.
  unfold detach_moves. destruct (last hh.2) as [i|] eqn:El; [|by apply last_none_nil]. destruct hh as [n p]. simpl in *.
  rewrite (last_split _ _ El) at 2. by rewrite detach_handle_kid.
Qed.

Lemma sim_do_attach st hs zs lk h s i c (q : hpos) x : sim st hs zs lk [] h ->
  zs !! s = Some (Some q) -> c <> s -> h_handles hs !! c = Some (Some x) \/ h_handles hs !! c = Some None ->
  meets (s_attach s i c st) (h_attach_child env q.1 i x)
    (fun st' _ h' => exists zs' q', sim st' (hdel c hs) zs' lk [] h' /\ zs' !! s = Some (Some q') /\ q'.1 = q.1) h.
Proof using Henv.
  intros Hsim Hq Hcs Hx. unfold s_attach, h_attach_child. rewrite (sim_pos_slot _ _ _ _ _ _ _ _ Hsim Hq). cbn [of_slot mbind sres_bind].
  apply meets_elem. intros m t e HT Ht. simpl.
  pose proof (sm_sim _ _ _ _ _ _ Hsim) as HS. assert (Hqin : q ∈ [] ++ somes zs ++ lk) by (apply elem_of_app; right; apply elem_of_app; left; by eapply slot_elem).
  destruct (simH_alive _ _ _ _ _ HS Hqin) as (r&m'&cq&Hl&HT'&Hcq&Hm&_). rewrite HT in HT'. injection HT' as <- ->.
  eapply meets_wp. { eapply wp_get; [exact Hcq|]. intros n En _ _ _ _. instantiate (1 := fun n h' => n_mut n = m /\ h' = h). split; [|done]. rewrite <- Hm, <- En. done. }
  intros n h' (->&->). destruct m; simpl; [|done].
  eapply (meets_wp _ _ _ (fun _ h' => h' = h)); [by apply wp_assert|]. intros [] h' ->.
  apply meets_slot. intros hc Hc. destruct (sim_slot _ _ _ _ _ _ _ _ Hsim Hc) as (z&Hz&->&Hzc&Hzin).
  assert (x = z.1) as -> by (destruct Hx as [Hx|Hx]; congruence). clear Hx.
  (* detach *)
  destruct (s_detach z.2 st) as [st1| | |] eqn:Ed.
  2: { simpl. pose proof (sim_do_detach _ _ _ _ _ _ _ Hsim Hzin) as Hd. rewrite Ed in Hd. simpl in Hd. unfold mbind, hm_bind.
       destruct (h_detach env z.1 h) as [[]?]; simpl in *; by simplify_eq. }
  2: { exfalso. unfold s_detach in Ed. destruct (s_trees st !! z.2.1) as [[m' t']|]; [|done]. destruct m'; [|done]. simpl in Ed.
       destruct (last z.2.2); [|done]. by destruct (tsub t' z.2.2). }
  2: { done. }
  pose proof (sim_do_detach _ _ _ _ _ _ _ Hsim Hzin) as Hd. rewrite Ed in Hd. simpl in Hd.
  pose proof (detach_moves_mut _ _ _ true q.2 Ed ltac:(eauto)) as (tq1&HTq1).
  assert (exists tz, s_trees st !! z.2.1 = Some (true, tz)) as Hzm.
  { unfold s_detach in Ed. destruct (s_trees st !! z.2.1) as [[[] tz]|]; [eauto|done|done]. }
  pose proof (detach_moves_mut _ _ _ true z.2 Ed Hzm) as (tz1&HTz1). pose proof (detach_moves_self z.2 st) as Hself.
  set (f := detach_moves z.2 st) in *. cbn [mbind sres_bind]. eapply meets_wp; [exact Hd|]. cbv beta. intros _ h1 Hsim1. clear Hd.
  pose proof (slot_moved f _ _ _ Hq) as Hq1. pose proof (slot_moved f _ _ _ Hz) as Hz1. set (zs1 := map (fmap (moved f)) zs) in *.
  rewrite (sim_pos_slot _ _ _ _ _ _ _ _ Hsim1 Hq1), (sim_pos_slot _ _ _ _ _ _ _ _ Hsim1 Hz1). cbn [of_slot moved fst snd mbind sres_bind].
  unfold s_attach_root. rewrite HTq1, HTz1. destruct (tsub tq1 (f q.2).2) as [[k cs|]|] eqn:Hsub; [|exact I|exact I].
  pose proof (sm_sim _ _ _ _ _ _ Hsim1) as HS1.
  assert (Hq1in : moved f q ∈ map_pos f [] ++ somes zs1 ++ lk) by (apply elem_of_app; right; apply elem_of_app; left; by eapply slot_elem).
  assert (Hz1in : moved f z ∈ map_pos f [] ++ somes zs1 ++ lk) by (apply elem_of_app; right; apply elem_of_app; left; by eapply slot_elem).
  destruct (Nat.eqb_spec (f q.2).1 (f z.2).1) as [E|E].
  { (* below itself *)
    destruct (simH_alive _ _ _ _ _ HS1 Hq1in) as (rq&mq&cq1&Hlq&HTq&Hcq1&Hmq&Hsq).
    destruct (simH_alive _ _ _ _ _ HS1 Hz1in) as (rz&mz&cz1&Hlz&HTz&Hcz1&Hmz&_). simpl in HTq, HTz, Hlz, Hlq, Hsq. rewrite Hself in Hlz.
    assert (rq = rz) as ->. { destruct HS1 as [_ [_ H2]]. by apply (H2 _ _ _ _ Hq1in Hz1in); [simpl|simpl; rewrite Hself|simpl]. }
    destruct (loc_fun_root _ _ _ Hlz) as [-> Hroot]. rewrite HTq1 in HTq. rewrite HTz1 in HTz. injection HTq as <- ->. injection HTz as <- ->.
    simpl. assert (Hw : wpx (h_attach_data env q.1 i z.1) (fun _ _ => False) (fun e => e = Panic \/ e = Diverge) h1).
    { unfold h_attach_data. eapply wpx_mono; [eapply (wpx_attach_cyclic env False (h_respine env) q.1 i z.1 h1 _ _ cq1 cz1 (f q.2).2); try done; [by eexists|by apply HS1|by apply Hroot|]|done|naive_solver].
      rewrite Hsub in Hsq. rewrite <- erase_is_node. by injection Hsq as <-. }
    unfold wpx in Hw. unfold mbind, hm_bind. destruct (h_attach_data env q.1 i z.1 h1) as [[]?]; [done|]. simpl. destruct Hw as [-> | ->]; auto. }
  pose proof (sim_attach_root env Henv h1 _ _ _ (moved f q) (moved f z) i tq1 tz1 k cs HS1 Hq1in Hz1in HTq1 HTz1 Hself E Hsub) as Ha. cbn [moved fst snd] in Ha. cbv zeta in Ha.
  destruct (_ && _); simpl.
  2: { unfold mbind, hm_bind. destruct (h_attach_data env q.1 i z.1 h1) as [[]?]; simpl in *; by simplify_eq. }
  apply wp_bind. eapply wp_mono; [exact Ha|]. cbv beta. intros [] h2 HS2. set (f2 := attach_handle (f q.2).1 (f z.2).1 (f q.2).2 i) in *.
  assert (Hsim2 : sim (SS (<[(f q.2).1:=(true, tinsert_child tq1 (f q.2).2 i tz1)]> (s_trees st1)) (move_handles f2 (s_handles st1)) (s_greens st1) (s_leaked st1))
                    hs (map (fmap (moved f2)) zs1) lk (map_pos f2 []) h2).
  { eapply sim_move; [exact Hsim1|..|exact HS2].
    - intros [xu [nu pu]] Hu. destruct (sm_leak_root _ _ _ _ _ _ Hsim1 _ Hu) as (_&t'&Ht'). unfold f2, attach_handle. simpl in *.
      destruct (Nat.eqb_spec nu (f q.2).1); [congruence|]. destruct (Nat.eqb_spec nu (f z.2).1); [congruence|done].
    - intros n' t' Ht'. exists t'. rewrite list_lookup_insert_ne; [done|]. congruence.
    - intros [xz [nz pz]] [xu [nu pu]] Hz' Hu Hne. destruct (sm_leak_root _ _ _ _ _ _ Hsim1 _ Hu) as (_&t'&Ht'). unfold f2, attach_handle. simpl in *.
      destruct (Nat.eqb_spec nz (f q.2).1); simpl; [intros E2; rewrite E2 in HTq1; congruence|].
      destruct (Nat.eqb_spec nz (f z.2).1); simpl; [|done]. intros E2. rewrite E2 in HTq1. congruence. }
  pose proof (slot_moved f2 _ _ _ Hz1) as Hz2. pose proof (slot_moved f2 _ _ _ Hq1) as Hq2.
  eapply wp_mono.
  { eapply (sim_drop h2 _ (somes (<[c:=None]> (map (fmap (moved f2)) zs1)) ++ lk) _ (moved f2 (moved f z))).
    eapply simH_perm; [|exact (sm_sim _ _ _ _ _ _ Hsim2)]. simpl. rewrite app_comm_cons. apply Permutation_app_tail. by apply slot_take. }
  intros [] h3 HS3. eexists _, (moved f2 (moved f q)). split; [eapply sim_del_handle; [exact Hsim2|exact HS3]|]. split; [|done].
  by rewrite list_lookup_insert_ne.
Qed.
Lemma sim_do_attach_all st hs zs lk h s i ins xs (q : hpos) : sim st hs zs lk [] h ->
  zs !! s = Some (Some q) -> Forall2 (fun c x => h_handles hs !! c = Some (Some x) \/ h_handles hs !! c = Some None) ins xs ->
  meets (s_attach_all s i ins st) (h_attach_all env q.1 i xs)
    (fun st' _ h' => exists zs', sim st' (foldl (fun hs c => hdel c hs) hs ins) zs' lk [] h') h.
Proof using Henv.
  intros Hsim Hq HF. revert st hs zs h i q Hsim Hq HF. revert xs. induction ins as [|c ins IH]; intros xs st hs zs h i q Hsim Hq HF.
  - inversion HF; subst. simpl. apply wp_skip. eauto.
  - inversion HF as [|? x ? xs' Hx HF']; subst. cbn [s_attach_all h_attach_all foldl]. apply meets_ill. intros Hcs.
    apply negb_true_iff, Nat.eqb_neq in Hcs. eapply meets_bind; [by eapply sim_do_attach|]. cbv beta.
    intros st1 [] h1 (zs1&q1&Hsim1&Hq1&Eq). rewrite <- Eq. eapply IH; [exact Hsim1|done|].
    eapply Forall2_impl; [exact HF'|]. intros c' x' Hc'. simpl. destruct (decide (c' = c)) as [->|]; [|by rewrite !list_lookup_insert_ne].
    right. apply list_lookup_insert. destruct Hc' as [Hc'|Hc']; by apply lookup_lt_Some in Hc'.
Qed.

(** ** Loops *)
Lemma sim_setx st hs zs lk Zx Zx' h h' : sim st hs zs lk Zx h ->
  simH h' (s_trees st) (Zx' ++ somes zs ++ lk) (somes (h_greens hs)) -> sim st hs zs lk Zx' h'.
Proof. intros [] HS. by constructor. Qed.
Lemma sel_go_any {A} (l : list A) n : sel_go any n l = seq n (length l).
Proof. revert n. induction l as [|x l IH]; intros n; simpl; [done|]. by rewrite IH. Qed.
Lemma sel_go_length {A} (Q : A -> bool) (l : list A) n : length (sel_go Q n l) <= length l.
Proof. revert n. induction l as [|x l IH]; intros n; simpl; [done|]. specialize (IH (S n)). destruct (Q x); simpl; lia. Qed.
Lemma sel_from_length {A} (Q : A -> bool) (l : list A) : length (sel_from Q l 0) <= length l.
Proof. apply sel_go_length. Qed.
Lemma pick_seq a b n : forall i, i <= a ->
  pick (fun i => (a <=? i) && (i <? b)) i (seq i n) = if (a <? b) && (a <? i + n) then Some a else None.
Proof.
  induction n as [|n IH]; intros i Hi; simpl.
  - assert (a <? i + 0 = false) as -> by (apply Nat.ltb_ge; lia). by rewrite andb_false_r.
  - destruct (Nat.leb_spec a i).
    + assert (i = a) as -> by lia. simpl. assert (a <? a + S n = true) as -> by (apply Nat.ltb_lt; lia). rewrite andb_true_r.
      destruct (a <? b) eqn:Eb; [done|]. clear IH. assert (Hgen : forall n j, b <= j -> pick (fun i => (a <=? i) && (i <? b)) j (seq j n) = None).
      { clear. induction n as [|n IH]; intros j Hj; simpl; [done|]. assert (j <? b = false) as -> by (apply Nat.ltb_ge; lia).
        rewrite andb_false_r. apply IH. lia. }
      apply Hgen. apply Nat.ltb_ge in Eb. lia.
    + simpl. rewrite IH by lia. by rewrite Nat.add_succ_r.
Qed.
Lemma pick_all js i : pick (fun _ => true) i js = head js.
Proof. by destruct js. Qed.

(** the children iterator of a handle, ready to run *)
Lemma sim_children_new h T Z G z : simH h T Z G -> z ∈ Z ->
  wp (h_children_new z.1) (fun it h' => it = HC z.1 None false /\ simH h' T (z :: Z) G) h.
Proof. intros HS Hz. apply wp_bind. eapply wp_mono; [by apply sim_clone|]. intros ? h1 (->&HS1). by apply wp_ret. Qed.
Lemma sim_green_len h T Z G (z : hpos) m t k cs : simH h T Z G -> z ∈ Z -> T !! z.2.1 = Some (m, t) -> tsub t z.2.2 = Some (Node k cs) ->
  wp (h_green z.1) (fun g h' => length (gchildren g) = length cs /\ h' = h) h.
Proof.
  intros HS Hz HT Ht. destruct (simH_alive _ _ _ _ _ HS Hz) as (r&m'&cz&Hl&HT'&Hcz&Hm&Hsub). rewrite HT in HT'. injection HT' as <- ->.
  rewrite Ht in Hsub. injection Hsub as Hsub. destruct HS as [(K&R&Hs&Ho&_) _]. eapply wp_green_of; [exact Hcz|by eapply owned_live|].
  split; [|done]. pose proof (length_erase_children (o_grn cz)) as E. rewrite <- Hsub in E. done.
Qed.
(** refused at the first child *)
Lemma sim_detach_loop_imm (tok : bool) h T Z G (z : hpos) t k cs fuel :
  simH h T (z :: Z) G -> T !! z.2.1 = Some (false, t) -> tsub t z.2.2 = Some (Node k cs) -> length cs < fuel ->
  match first_at (kid_sel tok) cs 0 with
  | Some _ => (h_detach_loop env (h_kids_next env tok) (fun _ => true) fuel 0 (HC z.1 None false) h).1 = Err Panic
  | None => wp (h_detach_loop env (h_kids_next env tok) (fun _ => true) fuel 0 (HC z.1 None false)) (fun _ h' => simH h' T Z G) h
  end.
Proof using Henv.
  intros HS HT Ht Hfuel. destruct fuel as [|fuel]; [lia|]. cbn [h_detach_loop].
  pose proof (sim_kids_next env Henv tok h T Z G z.2 false t k cs (HC z.1 None false) (sel_from (kid_sel tok) cs 0) [(z.1, z.2)]) as Hk.
  specialize (Hk ltac:(by destruct z) ltac:(apply it_new) HT Ht ltac:(by intros ? ? [=])). rewrite sel_from_step in Hk.
  destruct (first_at (kid_sel tok) cs 0) as [j|].
  - apply wp_ok in Hk as ([o it1]&h1&E&Hk). destruct Hk as (x&Zi&Eo&_&_&_&_&_&HS1). simpl in Eo. subst o. unfold mbind at 1, hm_bind at 1. rewrite E.
    pose proof (sim_detach_imm env _ _ _ _ (x, (z.2.1, z.2.2 ++ [j])) t HS1 ltac:(left) HT) as Ed. cbn [fst snd] in Ed.
    cbv beta iota. unfold mbind, hm_bind. by rewrite Ed.
  - apply wp_bind. eapply wp_mono; [exact Hk|]. intros [o it1] h1 (Eo&Zi&Hit&Hn&HS1). simpl in *. subst o.
    eapply (sim_children_drop _ _ _ _ z.2 it1 None); [|rewrite Hn; split; by intros [? ?]]. rewrite Hn. simpl.
    inversion Hit; subst; simpl in *; try done.
Qed.
Lemma sim_do_splice st hs zs lk h s a b ins xs (q : hpos) : sim st hs zs lk [] h ->
  zs !! s = Some (Some q) -> Forall2 (fun c x => h_handles hs !! c = Some (Some x)) ins xs ->
  meets (s_splice s a b ins st) (h_splice_children env q.1 a b xs)
    (fun st' _ h' => exists zs', sim st' (foldl (fun hs c => hdel c hs) hs ins) zs' lk [] h') h.
Proof using Henv.
  intros Hsim Hq HF. unfold s_splice, h_splice_children. rewrite (sim_pos_slot _ _ _ _ _ _ _ _ Hsim Hq). cbn [of_slot mbind sres_bind].
  apply meets_elem. intros m t e HT Ht. cbv beta iota. apply meets_ill. intros [Hnode _]%andb_true_iff. destruct e as [k cs|]; [clear Hnode|done].
  pose proof (sm_sim _ _ _ _ _ _ Hsim) as HS. assert (Hqin : q ∈ [] ++ somes zs ++ lk) by (apply elem_of_app; right; apply elem_of_app; left; by eapply slot_elem).
  destruct (simH_alive _ _ _ _ _ HS Hqin) as (r&m'&cq&Hl&HT'&Hcq&Hm&_). rewrite HT in HT'. injection HT' as <- ->.
  eapply (meets_wp _ _ _ (fun n h' => n_mut n = m /\ h' = h)). { eapply wp_get; [exact Hcq|]. intros n En _ _ _ _. split; [|done]. rewrite <- Hm, <- En. done. }
  intros n h' (->&->). destruct m; simpl; [|done].
  eapply (meets_wp _ _ _ (fun _ h' => h' = h)); [by apply wp_assert|]. intros [] h' ->.
  eapply meets_wp; [by eapply sim_green_len|]. intros g h' (Hlen&->).
  eapply meets_wp; [by apply sim_children_new|]. intros it h1 (->&HS1). simpl in HS1.
  assert (Eh : h_element_children_next env = h_kids_next env true) by done. rewrite Eh. clear Eh.
  pose proof (sim_detach_loop env Henv true (fun i => (a <=? i) && (i <? b)) (s_trees st) (somes zs ++ lk) (somes (h_greens hs)) q.2 (erase (gr (pc (P h)) r)) k cs
    (S (length (gchildren g))) 0 (HC q.1 None false) (sel_from (kid_sel true) cs 0) [(q.1, q.2)] h1) as Hloop.
  specialize (Hloop ltac:(by destruct q) ltac:(apply it_new) HT Ht ltac:(by intros ? ? [=])).
  specialize (Hloop ltac:(rewrite Hlen; apply Nat.lt_succ_r, sel_from_length)).
  assert (Epick : pick (fun i => (a <=? i) && (i <? b)) 0 (sel_from (kid_sel true) cs 0) = if (a <? b) && (a <? length cs) then Some a else None).
  { unfold sel_from. simpl. rewrite sel_go_any. apply pick_seq. lia. }
  rewrite Epick in Hloop. clear Epick. simpl.
  assert (HF' : Forall2 (fun c x => h_handles hs !! c = Some (Some x) \/ h_handles hs !! c = Some None) ins xs) by (eapply Forall2_impl; [exact HF|]; auto).
  destruct ((a <? b) && (a <? length cs)) eqn:Eab; simpl.
  - eapply meets_bind.
    + instantiate (1 := fun st1 _ h2 => exists zs1 (q1 : hpos), sim st1 hs zs1 lk [] h2 /\ zs1 !! s = Some (Some q1) /\ q1.1 = q.1).
      destruct q as [xq [nq pq]]. unfold s_detach. cbn [fst snd] in *. rewrite HT. simpl. rewrite last_snoc, removelast_last.
      assert (is_Some (cs !! a)) as (y&Hy). { apply lookup_lt_is_Some. apply andb_true_iff in Eab as [_ Eab]. by apply Nat.ltb_lt in Eab. }
      rewrite (tsub_kid _ _ _ _ _ Ht), Hy. simpl. eapply wp_mono; [exact Hloop|]. cbv beta. intros [] h2 (x&Hx&HS2). rewrite Hy in Hx. injection Hx as <-.
      eexists _, _. split; [by eapply (sim_detach_move st hs zs lk []); [|done|]|]. split; [by apply slot_moved|done].
    + intros st1 [] h2 (zs1&q1&Hsim1&Hq1&Eq). rewrite <- Eq. by eapply sim_do_attach_all.
  - eapply meets_wp; [exact Hloop|]. cbv beta. intros [] h2 HS2. eapply sim_do_attach_all; [|done|done]. by eapply sim_setx.
Qed.
Lemma sim_do_detach_kids (tok : bool) st hs zs lk h s (q : hpos) : sim st hs zs lk [] h -> zs !! s = Some (Some q) ->
  meets (s_detach_kids tok s st)
    (g ← h_green q.1; it ← h_children_new q.1;
     h_detach_loop env (h_kids_next env tok) (fun _ => true) (S (length (gchildren g))) 0 it)
    (fun st' _ h' => exists zs', sim st' hs zs' lk [] h') h.
Proof using Henv.
  intros Hsim Hq. unfold s_detach_kids, s_detach_first. rewrite (sim_pos_slot _ _ _ _ _ _ _ _ Hsim Hq). cbn [of_slot mbind sres_bind].
  unfold s_elem. destruct (s_trees st !! q.2.1) as [[m t]|] eqn:HT; [|done]. destruct (tsub t q.2.2) as [[k cs|]|] eqn:Ht; [|done|done]. simpl.
  pose proof (sm_sim _ _ _ _ _ _ Hsim) as HS. assert (Hqin : q ∈ [] ++ somes zs ++ lk) by (apply elem_of_app; right; apply elem_of_app; left; by eapply slot_elem).
  eapply meets_wp; [by eapply sim_green_len|]. intros g h' (Hlen&->).
  eapply meets_wp; [by apply sim_children_new|]. intros it h1 (->&HS1). simpl in HS1.
  destruct m.
  - pose proof (sim_detach_loop env Henv tok (fun i => true) (s_trees st) (somes zs ++ lk) (somes (h_greens hs)) q.2 t k cs
      (S (length (gchildren g))) 0 (HC q.1 None false) (sel_from (kid_sel tok) cs 0) [(q.1, q.2)] h1) as Hloop.
    specialize (Hloop ltac:(by destruct q) ltac:(apply it_new) HT Ht ltac:(by intros ? ? [=])).
    specialize (Hloop ltac:(rewrite Hlen; apply Nat.lt_succ_r, sel_from_length)).
    rewrite pick_all in Hloop. fold (first_at (kid_sel tok) cs 0) in Hloop. destruct (first_at (kid_sel tok) cs 0) as [j|] eqn:Ej; simpl.
    + pose proof (first_at_is (kid_sel tok) cs 0) as Hj. rewrite Ej in Hj. destruct Hj as (_&(y&Hy&_)&_).
      destruct q as [xq [nq pq]]. unfold s_detach. cbn [fst snd] in *. rewrite HT. simpl. rewrite last_snoc, removelast_last, (tsub_kid _ _ _ _ _ Ht), Hy. simpl.
      eapply wp_mono; [exact Hloop|]. cbv beta. intros [] h2 (x&Hx&HS2). rewrite Hy in Hx. injection Hx as <-.
      eexists. by eapply (sim_detach_move st hs zs lk []).
    + eapply wp_mono; [exact Hloop|]. cbv beta. intros [] h2 HS2. exists zs. by eapply sim_setx.
  - pose proof (sim_detach_loop_imm tok h1 (s_trees st) (somes zs ++ lk) (somes (h_greens hs)) q t k cs (S (length (gchildren g))) HS1 HT Ht ltac:(lia)) as Hloop.
    destruct (first_at (kid_sel tok) cs 0) as [j|] eqn:Ej; simpl.
    + destruct q as [xq [nq pq]]. unfold s_detach. cbn [fst snd] in *. by rewrite HT.
    + eapply wp_mono; [exact Hloop|]. cbv beta. intros [] h2 HS2. exists zs. by eapply sim_setx.
Qed.

Lemma sim_by_kind_loop (tok : bool) m fuel : forall st hs zs lk Zx h n p mu t k cs next,
  sim st hs zs lk Zx h -> s_trees st !! n = Some (mu, t) -> tsub t p = Some (Node k cs) ->
  got n ((fun j => p ++ [j]) <$> first_at (kid_sel_kind tok m) cs 0) next Zx -> length cs < fuel ->
  meets (s_detach_all fuel (kid_sel_kind tok m) (n, p) st) (h_by_kind_detach_loop env tok m fuel next)
    (fun st' _ h' => exists zs', sim st' hs zs' lk [] h') h.
Proof using Henv.
  induction fuel as [|fuel IH]; intros st hs zs lk Zx h n p mu t k cs next Hsim HT Ht Hgot Hfuel; [lia|].
  cbn [s_detach_all h_by_kind_detach_loop]. unfold s_detach_first at 1, s_elem. cbn [fst snd]. rewrite HT, Ht. simpl.
  pose proof (first_at_is (kid_sel_kind tok m) cs 0) as Hfirst.
  destruct (first_at (kid_sel_kind tok m) cs 0) as [j|] eqn:Ej; destruct next as [x|]; simpl in Hgot; try done; subst Zx; simpl.
  2: { apply wp_bind, wp_ret, wp_skip. eauto. }
  destruct Hfirst as (_&(y&Hy&Hsel)&_). pose proof (lookup_lt_Some _ _ _ Hy) as Hj.
  pose proof (sm_sim _ _ _ _ _ _ Hsim) as HS.
  (* look ahead *)
  set (o := (fun i => p ++ [i]) <$> first_at (kid_sel_kind tok m) cs (S j)).
  assert (Hnav : wp (h_nav env (if tok then NNextSiblingOrTokenByKind m else NNextSiblingByKind m) x)
    (fun nx h' => exists Zn, got n o nx Zn /\ simH h' (s_trees st) (Zn ++ [(x, (n, p ++ [j]))] ++ somes zs ++ lk) (somes (h_greens hs))) h).
  { eapply wp_mono; [eapply (sim_nav env Henv _ _ _ _ _ (x, (n, p ++ [j])) mu t o HS); [left|exact HT|]|done].
    cbn [fst snd]. destruct tok; simpl; rewrite (sideways_snoc _ _ _ _ _ _ Ht); [done|]. unfold for_node. rewrite (tsub_kid _ _ _ _ _ Ht), Hy.
    unfold kid_sel_kind, node_by_kind in Hsel. apply andb_true_iff in Hsel as [_ Hsel]. by destruct y. }
  eapply (meets_wp _ _ _ (fun r h' => exists nx Zn, r = (Some x, nx) /\ got n o nx Zn /\ simH h' (s_trees st) (Zn ++ [(x, (n, p ++ [j]))] ++ somes zs ++ lk) (somes (h_greens hs)))).
  { apply wp_bind. eapply wp_mono; [exact Hnav|]. cbv beta. intros nx h1 (Zn&Hg&HS1). apply wp_ret. eauto 10. }
  cbv beta. intros ? h1 (nx&Zn&->&Hg&HS1). cbv beta iota. clear Hnav.
  assert (Hsim1 : sim st hs zs lk (Zn ++ [(x, (n, p ++ [j]))]) h1) by (eapply sim_setx; [exact Hsim|]; by rewrite <- app_assoc).
  (* detach *)
  pose proof (sim_do_detach _ _ _ _ _ _ (x, (n, p ++ [j])) Hsim1 ltac:(apply elem_of_app; left; apply elem_of_app; right; left)) as Hd.
  cbn [fst snd] in Hd. unfold detach_moves in Hd. cbn [fst snd] in Hd. rewrite last_snoc, removelast_last in Hd.
  unfold s_detach in Hd |- *. cbn [fst snd] in Hd |- *. rewrite HT in Hd |- *. destruct mu; simpl in Hd |- *.
  2: { unfold mbind, hm_bind. destruct (h_detach env x h1) as [[]?]; simpl in *; by simplify_eq. }
  rewrite last_snoc, removelast_last, (tsub_kid _ _ _ _ _ Ht), Hy in Hd |- *. simpl in Hd |- *.
  eapply meets_wp; [exact Hd|]. cbv beta. intros [] h2 Hsim2. clear Hd. set (f := detach_handle n (length (s_trees st)) p j) in *.
  set (st2 := SS _ _ _ _) in Hsim2 |- *. unfold map_pos in Hsim2. rewrite map_app in Hsim2. simpl in Hsim2. fold (map_pos f Zn) in Hsim2.
  eapply meets_wp.
  { eapply (sim_drop h2 _ (map_pos f Zn ++ somes (map (fmap (moved f)) zs) ++ lk) _ (x, f (n, p ++ [j]))).
    eapply simH_perm; [|exact (sm_sim _ _ _ _ _ _ Hsim2)]. rewrite <- app_assoc. simpl. symmetry. apply Permutation_middle. }
  cbv beta. intros [] h3 HS3. assert (Hsim3 : sim st2 hs (map (fmap (moved f)) zs) lk (map_pos f Zn) h3) by (by eapply sim_setx).
  eapply (IH st2 hs _ lk (map_pos f Zn) h3 n p true (tdelete_child t p j) k (take j cs ++ drop (S j) cs)).
  - exact Hsim3.
  - unfold st2. simpl. apply lookup_app_l_Some, list_lookup_insert. by eapply lookup_lt_Some.
  - unfold tdelete_child. rewrite Ht. by eapply treplace_sub.
  - rewrite (first_at_removed _ _ _ Ej). unfold o in Hg. pose proof (first_at_is (kid_sel_kind tok m) cs (S j)) as Hn.
    destruct (first_at (kid_sel_kind tok m) cs (S j)) as [j'|], nx as [y'|]; simpl in Hg |- *; try done; subst Zn; [|done].
    unfold map_pos. simpl. unfold f, detach_handle. cbn [fst snd]. rewrite Nat.eqb_refl, pos_removed_child.
    destruct Hn as (Hle&_). assert (j' =? j = false) as -> by (apply Nat.eqb_neq; lia). assert (j <? j' = true) as -> by (apply Nat.ltb_lt; lia). done.
  - rewrite app_length, take_length, drop_length. lia.
Qed.
Lemma sim_do_by_kind (tok : bool) m st hs zs lk h s (q : hpos) : sim st hs zs lk [] h -> zs !! s = Some (Some q) ->
  meets (s_detach_by_kind tok m s st)
    (g ← h_green q.1; nx ← h_by_kind_new env tok m q.1; h_by_kind_detach_loop env tok m (S (length (gchildren g))) nx)
    (fun st' _ h' => exists zs', sim st' hs zs' lk [] h') h.
Proof using Henv.
  intros Hsim Hq. unfold s_detach_by_kind. rewrite (sim_pos_slot _ _ _ _ _ _ _ _ Hsim Hq). cbn [of_slot mbind sres_bind].
  unfold s_elem. destruct (s_trees st !! q.2.1) as [[mu t]|] eqn:HT; [|done]. destruct (tsub t q.2.2) as [x|] eqn:Ht; [|done]. simpl.
  destruct x as [k cs|].
  2: { cbn [s_detach_all]. unfold s_detach_first, s_elem. by rewrite HT, Ht. }
  pose proof (sm_sim _ _ _ _ _ _ Hsim) as HS. assert (Hqin : q ∈ [] ++ somes zs ++ lk) by (apply elem_of_app; right; apply elem_of_app; left; by eapply slot_elem).
  eapply meets_wp; [by eapply sim_green_len|]. intros g h' (Hlen&->).
  eapply (meets_wp _ _ _ (fun nx h' => exists Zn, got q.2.1 ((fun j => q.2.2 ++ [j]) <$> first_at (kid_sel_kind tok m) cs 0) nx Zn /\
     simH h' (s_trees st) (Zn ++ somes zs ++ lk) (somes (h_greens hs)))).
  - apply wp_bind. eapply wp_mono; [by apply sim_clone|]. cbv beta. intros ? h1 (->&HS1). apply wp_bind.
    eapply wp_mono; [eapply (sim_nav env Henv _ _ _ _ _ q mu t); [exact HS1|left|exact HT|]|].
    { instantiate (1 := (fun j => q.2.2 ++ [j]) <$> first_at (kid_sel_kind tok m) cs 0). unfold kid_sel_kind.
      destruct tok; simpl; unfold down; by rewrite Ht. }
    cbv beta. intros nx h2 (Zn&Hg&HS2). apply wp_bind.
    eapply wp_mono; [eapply (sim_drop h2 _ (Zn ++ somes zs ++ lk) _ q); eapply simH_perm; [|exact HS2]; symmetry; apply Permutation_middle|].
    intros [] h3 HS3. apply wp_ret. eauto.
  - cbv beta. intros nx h1 (Zn&Hg&HS1). rewrite Hlen. simpl tchildren. destruct q as [xq [n p]]. cbn [fst snd] in *.
    eapply (sim_by_kind_loop tok m (S (length cs)) st hs zs lk Zn h1 n p mu t k cs nx); [by eapply sim_setx|exact HT|exact Ht|exact Hg|lia].
Qed.

(** ** One step *)
Lemma mapM_green st hs zs lk h els ts : sim st hs zs lk [] h ->
  mapM (fun g => mjoin (s_greens st !! g)) els = Some ts ->
  exists gs, mapM (fun g => mjoin (h_greens hs !! g)) els = Some gs /\ map erase gs = ts /\ Forall (fun g => g ∈ somes (h_greens hs)) gs.
Proof.
  intros Hsim. revert ts. induction els as [|i els IH]; intros ts; simpl.
  - intros [= <-]. exists []. split_and!; [done|done|constructor].
  - destruct (s_greens st !! i) as [[t|]|] eqn:Ei; simpl; try done. destruct (sim_gslot _ _ _ _ _ _ _ _ Hsim Ei) as (g&Hg&He&Hin).
    destruct (mapM _ els) as [ts'|]; simpl; [|done]. intros [= <-]. destruct (IH ts' eq_refl) as (gs&Hgs&Hm&HF). exists (g :: gs).
    rewrite Hg. simpl. rewrite Hgs. simpl. split_and!; [done|by rewrite He, Hm|by constructor].
Qed.
Lemma mapM_slots st hs zs lk h ins : sim st hs zs lk [] h ->
  forallb (fun c => bool_decide (is_Some (mjoin (s_handles st !! c)))) ins = true ->
  exists xs, mapM (fun c => mjoin (h_handles hs !! c)) ins = Some xs /\ Forall2 (fun c x => h_handles hs !! c = Some (Some x)) ins xs.
Proof.
  intros Hsim. induction ins as [|i ins IH]; simpl; [by exists []|]. intros [Hi Hins]%andb_true_iff. destruct (IH Hins) as (xs&Hxs&HF).
  apply bool_decide_eq_true in Hi. destruct (s_handles st !! i) as [[hh|]|] eqn:Ei; simpl in Hi; [|by destruct Hi|by destruct Hi].
  destruct (sim_slot _ _ _ _ _ _ _ _ Hsim Ei) as (z&_&_&Hz&_). exists (z.1 :: xs). rewrite Hz. simpl. rewrite Hxs. split; [done|by constructor].
Qed.

(** proof device, no counterpart in the code *)
Definition step_post (r : sst * obs) (r' : hst * obs) (h : heap) : Prop := r.2 = r'.2 /\ simulates r.1 r'.1 h.

Lemma greens_wfg h T Z G : simH h T Z G -> Forall wfg G.
Proof.
  intros [(K&R&Hs&Ho&_) _]. pose proof (on_wf _ _ _ _ Ho) as HF. rewrite (on_perm _ _ _ _ Ho) in HF. by apply Forall_app in HF as [_ HF].
Qed.
Lemma sim_in st hs zs lk Zx h (z : hpos) s : sim st hs zs lk Zx h -> zs !! s = Some (Some z) -> z ∈ somes zs ++ lk.
Proof. intros _ Hz. apply elem_of_app. left. by eapply slot_elem. Qed.

Lemma existsb_somes n (l : list (option hpos)) :
  existsb (fun o : option (nat * pos) => match o with Some h => h.1 =? n | None => false end) (map (fmap snd) l) = true <-> exists z, z ∈ somes l /\ z.2.1 = n.
Proof.
  induction l as [|[z|] l IH]; simpl.
  - split; [done|]. by intros (z&?%elem_of_nil&_).
  - rewrite orb_true_iff, IH, Nat.eqb_eq. split.
    + intros [E|(u&Hu&E)]; [exists z; split; [left|done]|exists u; split; [by right|done]].
    + intros (u&[->|Hu]%elem_of_cons&E); [by left|right; eauto].
  - by rewrite IH.
Qed.
Lemma others_in_spec st hs zs lk h s n : sim st hs zs lk [] h ->
  (forall u, u ∈ lk -> n <> u.2.1) ->
  others_in n s st = negb (bool_decide (Forall (fun u : hpos => u.2.1 <> n) (somes (<[s:=None]> zs) ++ lk))).
Proof.
  intros Hsim Hlk. unfold others_in. rewrite (sm_pos _ _ _ _ _ _ Hsim). rewrite <- (map_fmap_insert snd).
  apply eq_true_iff_eq. rewrite negb_true_iff, bool_decide_eq_false. etrans; [apply existsb_somes|]. split.
  - intros (z&Hz&E) HF. rewrite Forall_forall in HF. apply (HF z); [|done]. apply elem_of_app. by left.
  - intros HF. apply not_Forall_Exists in HF; [|apply _]. apply Exists_exists in HF as (z&[Hz|Hz]%elem_of_app&E); apply dec_stable in E.
    + eauto.
    + exfalso. by apply (Hlk z Hz).
Qed.

Lemma s_nav_ok n t p : s_nav n t p <> SPanic /\ s_nav n t p <> SStuck.
Proof. destruct n; simpl; unfold down, for_node; try done; destruct (tsub t p) as [[]|]; done. Qed.
Lemma s_look_ok st hh : s_look st hh <> SPanic /\ s_look st hh <> SStuck.
Proof. unfold s_look. destruct (s_trees st !! hh.1) as [[]|]; [|done]. destruct (tsub t hh.2), (trange t hh.2); done. Qed.
Lemma meets_assoc3 {A E1 E2 E3 C} (s : sres A) (f : A -> sres C) (m1 : hm E1) (m2 : E1 -> hm E2) (m3 : E1 -> E2 -> hm E3) hs Q (R : C -> hst * obs -> heap -> Prop) h :
  meets s (a ← m1; b ← m2 a; m3 a b) Q h -> (forall a b h', Q a b h' -> exists c, f a = SOk c /\ R c (hs, None) h') ->
  meets (s ≫= f) (a ← m1; b ← m2 a; _ ← m3 a b; mret (hs, None : obs)) R h.
Proof.
  intros Hm Hr.
  assert (Hb : meets (s ≫= f) ((a ← m1; b ← m2 a; m3 a b) ≫= (fun _ => mret (hs, None : obs))) R h).
  { eapply meets_bind; [exact Hm|]. intros a b h' HQ. destruct (Hr a b h' HQ) as (c&->&HR). by apply wp_ret. }
  assert (E : ((a ← m1; b ← m2 a; m3 a b) ≫= (fun _ => mret (hs, None : obs))) h = (a ← m1; b ← m2 a; _ ← m3 a b; mret (hs, None : obs)) h).
  { unfold mret, hm_ret, mbind, hm_bind. destruct (m1 h) as [[a|] h1]; [|done]. destruct (m2 a h1) as [[b|] h2]; [|done]. by destruct (m3 a b h2) as [[]?]. }
  unfold meets, wp in *. by rewrite E in Hb.
Qed.
Lemma elem_of_take_elem {A} (x : A) n l : x ∈ take n l -> x ∈ l.
Proof. intros H. rewrite <- (take_drop n l). apply elem_of_app. by left. Qed.
Lemma elem_of_drop_elem {A} (x : A) n l : x ∈ drop n l -> x ∈ l.
Proof. intros H. rewrite <- (take_drop n l). apply elem_of_app. by right. Qed.
Lemma meets_read {A B} (s : sres A) g (m : hm B) Q h : h_green_read g h = (Ok (), h) -> meets s m Q h -> meets s (_ ← h_green_read g; m) Q h.
Proof. intros E Hm. destruct s; unfold meets, wp, mbind, hm_bind in *; by rewrite ?E. Qed.
Lemma sim_step o st hs h : simulates st hs h -> meets (s_step o st) (hstep env o hs) step_post h.
Proof using Henv.
  intros (zs&lk&Hsim). pose proof (sm_sim _ _ _ _ _ _ Hsim) as HS. cbn [app] in HS.
  assert (Hslot : forall s {C} (f : nat * pos -> sres C) {B} (m : id -> hm B) Q,
    (forall z : hpos, zs !! s = Some (Some z) -> z ∈ somes zs ++ lk -> meets (f z.2) (m z.1) Q h) ->
    meets (of_slot (A:=nat * pos) (s_handles st !! s) ≫= f) (h_slot (h_handles hs !! s) ≫= m) Q h).
  { intros s C f B m Q Hf. apply meets_slot. intros hh Hh. destruct (sim_slot _ _ _ _ _ _ _ _ Hsim Hh) as (z&Hz&->&Hzh&Hin). rewrite Hzh.
    exact (Hf z Hz Hin). }
  destruct o; cbn [s_step hstep].
  - (* GreenToken::new *)
    apply meets_ill. intros Hb. apply N.leb_le in Hb. apply wp_bind. eapply wp_mono; [eapply (sim_green_build env Henv _ _ _ _ _ (Token k s)); [exact HS|]|].
    + intros a. exists (green_token_new a k s). split_and!; try done; [by constructor|by intros x Hx%elem_of_nil].
    + intros g h1 (He&HS1). apply wp_ret. split; [done|]. exists zs, lk. by eapply sim_add_green.
  - (* GreenNode::new *)
    destruct (mapM (fun g => mjoin (s_greens st !! g)) els) as [ts|] eqn:Ets; [|done].
    destruct (mapM_green _ _ _ _ _ _ _ Hsim Ets) as (gs&->&<-&HF).
    assert (Hwf : Forall wfg gs). { pose proof (greens_wfg _ _ _ _ HS) as HG. eapply Forall_impl; [exact HF|]. intros g Hg. rewrite Forall_forall in HG. auto. }
    assert (Etext : ttext (Node k (map erase gs)) = gctext gs).
    { rewrite gctext_ctext. by rewrite ttext_node. }
    rewrite Etext. destruct (blen (gctext gs) <=? u32_max)%N eqn:Eb; simpl.
    + apply N.leb_le in Eb. apply wp_bind. eapply wp_mono; [eapply (sim_green_build env Henv _ _ _ _ _ (Node k (map erase gs))); [exact HS|]|].
      * intros a. rewrite green_new_fits by done. eexists. split; [done|]. split; [done|]. split; [by apply wfg_with_offsets|]. unfold kids. simpl. rewrite with_offsets_snd. split.
        -- intros x Hx. rewrite Forall_forall in HF. by apply live_elem, HF.
        -- f_equal. rewrite <- (with_offsets_snd 0 gs) at 2. by rewrite map_map.
      * intros g h1 (He&HS1). apply wp_ret. split; [done|]. exists zs, lk. by eapply sim_add_green.
    + apply N.leb_gt in Eb. unfold mbind, hm_bind, h_green_build. by rewrite green_new_overflow.
  - (* drop of a green element *)
    apply meets_slot. intros t Ht. destruct (sim_gslot _ _ _ _ _ _ _ _ Hsim Ht) as (x&Hx&He&Hin). rewrite Hx. apply wp_bind, wp_ret, wp_bind.
    eapply wp_mono; [eapply (sim_green_drop _ _ _ (somes (<[g:=None]> (h_greens hs)))); eapply simH_G; [|exact HS]; by apply slot_take|].
    intros [] h1 HS1. apply wp_ret. split; [done|]. exists zs, lk. by eapply sim_del_green.
  - (* new_root, new_root_mut *)
    apply meets_slot. intros t Ht. destruct (sim_gslot _ _ _ _ _ _ _ _ Hsim Ht) as (x&Hx&He&Hin). rewrite Hx. apply meets_ill. intros Hn.
    apply wp_bind, wp_ret, wp_bind. eapply wp_mono; [by eapply sim_green_own|]. intros [] h1 HS1. apply wp_bind.
    eapply (wp_mono _ (fun y h' => simH h' (s_trees st ++ [(mut, erase x)]) ((y, (length (s_trees st), [])) :: somes zs ++ lk) (somes (h_greens hs)))).
    { destruct mut; by apply (sim_new_root env Henv). }
    intros y h2 HS2. apply wp_ret. split; [done|]. rewrite He in HS2. eexists _, lk. by apply (sim_add_tree st hs zs lk h).
  - (* green().to_owned() *)
    apply Hslot. intros z Hz Hin. apply meets_elem. intros m t x HT Ht. cbv beta iota.
    pose proof (sim_green _ _ _ _ _ _ _ _ HS Hin HT Ht) as Hg. apply wp_ok in Hg as (g&h1&E&He&HS1).
    change (wp (g ← h_green z.1; _ ← h_green_own g; mret (hgadd g hs, None : obs)) (step_post (add_green x st, None)) h).
    unfold wp. unfold mbind, hm_bind in E |- *. destruct (h_green z.1 h) as [[g'|] h0]; [|done]. destruct (h_green_own g' h0) as [[[]|] h0']; [|done].
    injection E as -> ->. split; [done|]. exists zs, lk. by eapply sim_add_green.
  - (* clone *)
    apply Hslot. intros z Hz Hin. apply wp_bind. eapply wp_mono; [by apply (sim_clone _ _ _ _ z HS)|]. intros y h1 (->&HS1). apply wp_ret. split; [done|].
    exists (zs ++ [Some z]), lk. apply (sim_add_handle st hs zs lk h h1 (Some z) Hsim); [|done].
    intros z' u [= <-] Hu. eapply (sm_leak_alone _ _ _ _ _ _ Hsim); [by eapply slot_elem|done].
  - (* drop *)
    apply Hslot. intros z Hz Hin. apply wp_bind. eapply wp_mono.
    { eapply (sim_drop _ _ (somes (<[s:=None]> zs) ++ lk) _ z). eapply simH_perm; [|exact HS]. rewrite app_comm_cons. apply Permutation_app_tail. by apply slot_take. }
    intros [] h1 HS1. apply wp_ret. split; [done|]. exists (<[s:=None]> zs), lk. by eapply sim_del_handle.
  - (* navigation *)
    apply Hslot. intros z Hz Hin. destruct (s_trees st !! z.2.1) as [[m t]|] eqn:HT; [|done].
    destruct (s_nav n t z.2.2) as [o| | |] eqn:En; simpl; [|by destruct (s_nav_ok n t z.2.2); congruence|by destruct (s_nav_ok n t z.2.2); congruence|done].
    apply wp_bind. eapply wp_mono; [by eapply (sim_nav env Henv)|]. cbv beta. intros y h1 (Zn&Hg&HS1). apply wp_ret. split; [done|].
    assert (exists oz : option hpos, Zn = option_list oz /\ y = fst <$> oz /\ pair z.2.1 <$> o = snd <$> oz /\ forall z', oz = Some z' -> z'.2.1 = z.2.1) as (oz&->&->&->&Hoz).
    { destruct o as [p|], y as [y|]; simpl in Hg; try done; subst Zn.
      - exists (Some (y, (z.2.1, p))). split_and!; try done. by intros z' [= <-].
      - exists None. split_and!; try done. }
    exists (zs ++ [oz]), lk. apply (sim_add_handle st hs zs lk h h1 oz Hsim); [|done].
    intros z' u Ez' Hu. rewrite (Hoz z' Ez'). eapply (sm_leak_alone _ _ _ _ _ _ Hsim); [by eapply slot_elem|done].
  - (* to_next_sibling *)
    change (list nat) with pos.
    apply Hslot. intros z Hz Hin. destruct (s_trees st !! z.2.1) as [[m t]|] eqn:HT; [|done].
    destruct (s_nav (if tok then NNextSiblingOrToken else NNextSibling) t z.2.2) as [o| | |] eqn:En; simpl;
      [|by destruct (s_nav_ok (if tok then NNextSiblingOrToken else NNextSibling) t z.2.2); congruence
       |by destruct (s_nav_ok (if tok then NNextSiblingOrToken else NNextSibling) t z.2.2); congruence|done].
    assert (HS' : simH h (s_trees st) (z :: somes (<[s:=None]> zs) ++ lk) (somes (h_greens hs))).
    { eapply simH_perm; [|exact HS]. rewrite app_comm_cons. apply Permutation_app_tail. by apply slot_take. }
    assert (Hlk : forall u, u ∈ lk -> z.2.1 <> u.2.1). { intros u Hu. eapply (sm_leak_alone _ _ _ _ _ _ Hsim); [by eapply slot_elem|done]. }
    assert (Hsome : forall z', z' ∈ somes (<[s:=None]> zs) -> z' ∈ somes zs).
    { intros z' Hz'. rewrite (slot_take _ _ _ Hz). by right. }
    apply wp_bind. eapply wp_mono; [by eapply (sim_to_next env Henv tok)|]. cbv beta. intros y h1 Hres. apply wp_ret.
    assert (Eleak : negb m && bool_decide (z.2.2 = []) && negb (others_in z.2.1 s st) =
      bool_decide (m = false /\ z.2.2 = [] /\ Forall (fun u : hpos => u.2.1 <> z.2.1) (somes (<[s:=None]> zs) ++ lk))).
    { rewrite (others_in_spec _ _ _ _ _ _ _ Hsim Hlk), negb_involutive. apply eq_true_iff_eq.
      rewrite !andb_true_iff, negb_true_iff, !bool_decide_eq_true. tauto. }
    rewrite Eleak. clear Eleak. case_bool_decide as Hd.
    + rewrite decide_True in Hres by done. destruct Hres as (->&->&->). split; [done|]. destruct Hd as (->&Ep&HF).
      exists (<[s:=None]> zs ++ [None]), (z :: lk). constructor; simpl.
      * by rewrite map_app, map_fmap_insert, (sm_handles _ _ _ _ _ _ Hsim).
      * by rewrite map_app, map_fmap_insert, (sm_pos _ _ _ _ _ _ Hsim).
      * apply (sm_greens _ _ _ _ _ _ Hsim).
      * by rewrite (sm_leaked _ _ _ _ _ _ Hsim).
      * constructor; [|apply (sm_leak_nodup _ _ _ _ _ _ Hsim)]. rewrite (sm_leaked _ _ _ _ _ _ Hsim). intros (u&E&Hu)%elem_of_list_fmap.
        by apply (Hlk u Hu).
      * intros u [->|Hu]%elem_of_cons; [eauto|by apply (sm_leak_root _ _ _ _ _ _ Hsim)].
      * intros a u. rewrite somes_app. simpl. rewrite app_nil_r. intros Ha [->|Hu]%elem_of_cons.
        -- rewrite Forall_forall in HF. apply HF. apply elem_of_app. by left.
        -- apply (sm_leak_alone _ _ _ _ _ _ Hsim); auto.
      * rewrite somes_app. simpl. rewrite app_nil_r. eapply simH_perm; [|exact HS']. apply Permutation_middle.
    + rewrite decide_False in Hres by done. destruct Hres as (Zn&Hg&HS1). split; [done|].
      assert (exists oz : option hpos, Zn = option_list oz /\ y = fst <$> oz /\ pair z.2.1 <$> o = snd <$> oz /\ forall z', oz = Some z' -> z'.2.1 = z.2.1) as (oz&->&->&->&Hoz).
      { destruct o as [p|], y as [y|]; simpl in Hg; try done; subst Zn.
        - exists (Some (y, (z.2.1, p))). split_and!; try done. by intros z' [= <-].
        - exists None. split_and!; try done. }
      exists (<[s:=None]> zs ++ [oz]), lk. constructor; simpl.
      * by rewrite map_app, map_fmap_insert, (sm_handles _ _ _ _ _ _ Hsim).
      * by rewrite map_app, map_fmap_insert, (sm_pos _ _ _ _ _ _ Hsim).
      * apply (sm_greens _ _ _ _ _ _ Hsim).
      * apply (sm_leaked _ _ _ _ _ _ Hsim).
      * apply (sm_leak_nodup _ _ _ _ _ _ Hsim).
      * apply (sm_leak_root _ _ _ _ _ _ Hsim).
      * intros a u. rewrite somes_app. intros [Ha|Ha]%elem_of_app Hu; [apply (sm_leak_alone _ _ _ _ _ _ Hsim); auto|].
        destruct oz as [z'|]; simpl in Ha; [|by apply elem_of_nil in Ha]. apply elem_of_list_singleton in Ha as ->. rewrite (Hoz _ eq_refl). auto.
      * eapply simH_perm; [|exact HS1]. rewrite somes_app, <- app_assoc, Permutation_app_swap_app. apply Permutation_app_head. by destruct oz.
  - (* clone_for_update *)
    apply Hslot. intros z Hz Hin. apply meets_elem. intros m t x HT Ht. cbv beta iota. apply meets_ill. intros Hn. destruct m; simpl.
    + destruct (simH_alive _ _ _ _ _ HS Hin) as (r&m'&cz&Hl&HT'&Hcz&Hm&_). rewrite HT in HT'. injection HT' as <- ->.
      rewrite P_pc in Hcz. destruct (hn h !! z.1) as [nz|] eqn:Hnz; [|done]. injection Hcz as <-.
      unfold h_clone_for_update, mbind, hm_bind, h_size. simpl. unfold mbind, hm_bind, h_get. rewrite Hnz. simpl in Hm. by rewrite Hm.
    + rewrite HT. apply wp_bind. eapply wp_mono; [by eapply (sim_clone_for_update env Henv)|]. intros y h1 HS1. apply wp_ret. split; [done|].
      eexists _, lk. by apply (sim_add_tree st hs zs lk h).
  - (* clone_subtree *)
    apply Hslot. intros z Hz Hin. apply meets_elem. intros m t x HT Ht. cbv beta iota. apply meets_ill. intros Hn.
    apply wp_bind. eapply wp_mono; [by eapply (sim_clone_subtree env Henv)|]. intros y h1 HS1. apply wp_ret. split; [done|].
    eexists _, lk. by apply (sim_add_tree st hs zs lk h).
  - (* detach *)
    apply Hslot. intros z Hz Hin. eapply meets_bind; [by eapply (sim_do_detach st hs zs lk [])|]. cbv beta. intros st1 [] h1 Hsim1.
    apply wp_ret. split; [done|]. by eexists _, lk.
  - (* splice_children *)
    destruct (s_handles st !! s) as [[hh|]|] eqn:Eh; [|unfold s_splice; by rewrite Eh|unfold s_splice; by rewrite Eh].
    destruct (sim_slot _ _ _ _ _ _ _ _ Hsim Eh) as (z&Hz&->&Hzh&_). rewrite Hzh. cbn [h_slot].
    destruct (forallb (fun c => bool_decide (is_Some (mjoin (s_handles st !! c)))) ins) eqn:Eins.
    2: { unfold s_splice. rewrite Eh. cbn [of_slot mbind sres_bind]. destruct (s_elem st z.2) as [[m x]| | |] eqn:Ee; cbn [mbind sres_bind].
         - by rewrite Eins, andb_false_r.
         - unfold s_elem in Ee. destruct (s_trees st !! z.2.1) as [[??]|]; [|done]. by destruct (tsub _ _).
         - unfold s_elem in Ee. destruct (s_trees st !! z.2.1) as [[??]|]; [|done]. by destruct (tsub _ _).
         - done. }
    destruct (mapM_slots _ _ _ _ _ _ Hsim Eins) as (xs&Hxs&HF). rewrite Hxs.
    change (mret z.1 ≫= ?f) with (f z.1).
    eapply meets_bind; [by eapply sim_do_splice|]. cbv beta. intros st1 [] h1 (zs1&Hsim1). apply wp_ret. split; [done|]. by exists zs1, lk.
  - (* detaching the children in a loop *)
    destruct (s_handles st !! s) as [[hh|]|] eqn:Eh; [|unfold s_detach_kids; by rewrite Eh|unfold s_detach_kids; by rewrite Eh].
    destruct (sim_slot _ _ _ _ _ _ _ _ Hsim Eh) as (z&Hz&->&Hzh&_). rewrite Hzh. cbn [h_slot].
    change (mret z.1 ≫= ?f) with (f z.1). cbv beta. eapply meets_assoc3; [by eapply sim_do_detach_kids|]. cbv beta. intros st1 [] h1 (zs1&Hsim1). eexists. split; [done|]. split; [done|]. by exists zs1, lk.
  - (* with by_kind *)
    destruct (s_handles st !! s) as [[hh|]|] eqn:Eh; [|unfold s_detach_by_kind; by rewrite Eh|unfold s_detach_by_kind; by rewrite Eh].
    destruct (sim_slot _ _ _ _ _ _ _ _ Hsim Eh) as (z&Hz&->&Hzh&_). rewrite Hzh. cbn [h_slot].
    change (mret z.1 ≫= ?f) with (f z.1). cbv beta. eapply meets_assoc3; [by eapply sim_do_by_kind|]. cbv beta. intros st1 [] h1 (zs1&Hsim1). eexists. split; [done|]. split; [done|]. by exists zs1, lk.
  - (* observation *)
    apply Hslot. intros z Hz Hin. destruct (s_look st z.2) as [l| | |] eqn:El; simpl; [|by destruct (s_look_ok st z.2); congruence|by destruct (s_look_ok st z.2); congruence|done].
    apply wp_bind. eapply wp_mono; [by eapply sim_look|]. intros ? h1 (->&->). apply wp_ret. split; [done|]. by exists zs, lk.
  - (* child_or_token_at_range *)
    apply Hslot. intros z Hz Hin. apply meets_elem. intros m t x Ht Hx. apply meets_ill. intros [Hn Hab%N.leb_le]%andb_prop.
    destruct x as [k cs|]; [|done]. unfold s_range. rewrite Ht. destruct (trange t z.2.2) as [[o e]|] eqn:Er; [|done]. cbn [mbind sres_bind].
    pose proof (sim_at_range env Henv _ _ _ _ _ _ _ _ _ _ _ _ _ HS Hin Ht Hx Er Hab) as Hat.
    destruct (N.leb_spec o a) as [Hle|Hlt]; simpl.
    + apply wp_bind. eapply wp_mono; [exact Hat|]. intros y h1 (Zn&Hgot&HS1). apply wp_ret. split; [done|]. cbn [fst snd].
      assert (exists oz : option hpos, Zn = option_list oz /\ y = fst <$> oz /\ (fun i => (z.2.1, z.2.2 ++ [i])) <$> at_range cs (a - o) (b - o) = snd <$> oz /\ forall z', oz = Some z' -> z'.2.1 = z.2.1) as (oz&->&->&Eoz&Hoz).
      { destruct (at_range cs (a - o) (b - o)) as [i|], y as [y|]; simpl in Hgot; try done; subst Zn.
        - exists (Some (y, (z.2.1, z.2.2 ++ [i]))). split_and!; try done. by intros z' [= <-].
        - exists None. split_and!; try done. }
      refine (eq_ind_r (fun u => simulates (add_handle u st) _ h1) _ Eoz). exists (zs ++ [oz]), lk. apply (sim_add_handle st hs zs lk h h1 oz Hsim); [|done].
      intros z' u Ez' Hu. rewrite (Hoz z' Ez'). eapply (sm_leak_alone _ _ _ _ _ _ Hsim); [by eapply slot_elem|done].
    + unfold mbind, hm_bind. destruct (h_child_or_token_at_range env z.1 (TR a b) h) as [[]]; simpl in *; congruence.
  - (* splice_children on greens *)
    apply meets_slot. intros t Ht. destruct (sim_gslot _ _ _ _ _ _ _ _ Hsim Ht) as (x&Hx&He&Hin). rewrite Hx. apply meets_ill. intros Hn.
    change (h_slot (Some (Some x)) ≫= ?f) with (f x). cbv beta. eapply meets_read; [by eapply sim_green_read|].
    destruct (mapM (fun g => mjoin (s_greens st !! g)) els) as [ts|] eqn:Ets; [|done].
    destruct (mapM_green _ _ _ _ _ _ _ Hsim Ets) as (gs&Egs&<-&HF). rewrite Egs.
    pose proof (greens_wfg _ _ _ _ HS) as HG.
    assert (Hwx : wfg x) by (rewrite Forall_forall in HG; by apply HG).
    assert (Hwgs : Forall wfg gs). { eapply Forall_impl; [exact HF|]. intros y Hy. rewrite Forall_forall in HG. auto. }
    assert (Hxn : gis_node x = true) by (by rewrite <- erase_is_node, He).
    assert (Ekids : tchildren t = map erase (kids x)). { rewrite <- He. destruct x; [|done]. unfold kids. simpl. by rewrite map_map. }
    set (new := take a (kids x) ++ gs ++ drop b (kids x)).
    assert (Et' : Node (tkind t) (take a (tchildren t) ++ map erase gs ++ drop b (tchildren t)) = Node (gkind x) (map erase new)).
    { unfold new. rewrite !map_app, Ekids, <- erase_kind, He, firstn_map, skipn_map. done. }
    rewrite Et'. assert (Elen : length (tchildren t) = length (kids x)) by (by rewrite Ekids, map_length). rewrite Elen.
    assert (Hwnew : Forall wfg new) by (apply Forall_take_drop; [by apply wfg_kids|done]).
    destruct (decide (a <= b <= length (kids x))) as [Hin'|Hin'].
    + rewrite (proj2 (Nat.leb_le a b)), (proj2 (Nat.leb_le b _)) by lia. cbn [andb panic_unless mbind sres_bind].
      assert (Hf : forall ad, green_splice_children Checked ad x (Included a) (Excluded b) gs = green_new Checked ad (gkind x) new).
      { intros ad. unfold green_splice_children. fold (kids x). by rewrite vec_splice_ok. }
      assert (Etext : ttext (Node (gkind x) (map erase new)) = gctext new) by (by rewrite gctext_ctext, ttext_node). rewrite Etext.
      destruct (blen (gctext new) <=? u32_max)%N eqn:Eb; simpl.
      * apply N.leb_le in Eb. apply wp_bind.
        eapply wp_mono; [eapply (sim_green_build env Henv _ _ _ _ _ (Node (gkind x) (map erase new))); [exact HS|]|].
        -- intros ad. rewrite Hf, green_new_fits by done. eexists. split; [done|]. split; [done|]. split; [by apply wfg_with_offsets|]. unfold kids at 1. simpl. rewrite with_offsets_snd. split.
           ++ intros y Hy. rewrite Forall_forall in HF. unfold new in Hy. rewrite !elem_of_app in Hy.
              destruct Hy as [Hy|[Hy|Hy]]; [|by apply live_elem, HF|].
              ** eapply live_kid; [by apply live_elem|]. by eapply elem_of_take_elem.
              ** eapply live_kid; [by apply live_elem|]. by eapply elem_of_drop_elem.
           ++ f_equal. rewrite <- (with_offsets_snd 0 new) at 2. by rewrite map_map.
        -- intros g' h1 (He'&HS1). apply wp_ret. split; [done|]. exists zs, lk. by eapply sim_add_green.
      * apply N.leb_gt in Eb. unfold mbind, hm_bind, h_green_build. cbn. by rewrite Hf, green_new_overflow.
    + assert ((a <=? b) && (b <=? length (kids x)) = false) as ->.
      { apply andb_false_iff. destruct (Nat.leb_spec a b); [right; apply Nat.leb_gt; lia|by left]. }
      cbn [panic_unless mbind sres_bind]. unfold mbind, hm_bind, h_green_build. cbn. unfold green_splice_children. fold (kids x).
      by rewrite vec_splice_panic.
  - (* replace_child on greens *)
    apply meets_slot. intros t Ht. destruct (sim_gslot _ _ _ _ _ _ _ _ Hsim Ht) as (x&Hx&He&Hin). rewrite Hx. apply meets_ill. intros Hn.
    change (h_slot (Some (Some x)) ≫= ?f) with (f x). cbv beta. eapply meets_read; [by eapply sim_green_read|].
    apply meets_slot. intros t2 Ht2. destruct (sim_gslot _ _ _ _ _ _ _ _ Hsim Ht2) as (y&Hy&Hey&Hiny). rewrite Hy.
    change (h_slot (Some (Some y)) ≫= ?f) with (f y). cbv beta zeta.
    pose proof (greens_wfg _ _ _ _ HS) as HG. rewrite Forall_forall in HG.
    assert (Ekids : tchildren t = map erase (kids x)). { rewrite <- He. destruct x; [|done]. unfold kids. simpl. by rewrite map_map. }
    set (new := <[i:=y]> (kids x)).
    assert (Et' : Node (tkind t) (<[i:=t2]> (tchildren t)) = Node (gkind x) (map erase new)).
    { unfold new. rewrite Ekids, <- erase_kind, He, <- Hey. f_equal. symmetry. apply (list_fmap_insert erase). }
    rewrite Et'.
    assert (Hwnew : Forall wfg new) by (apply Forall_insert; [by apply wfg_kids, HG|by apply HG]).
    assert (Hf : forall ad, green_replace_child Checked ad x i y = green_new Checked ad (gkind x) new).
    { intros ad. unfold green_replace_child. by rewrite replace_nth_insert. }
    assert (Etext : ttext (Node (gkind x) (map erase new)) = gctext new) by (by rewrite gctext_ctext, ttext_node). rewrite Etext.
    destruct (blen (gctext new) <=? u32_max)%N eqn:Eb; simpl.
    + apply N.leb_le in Eb. apply wp_bind.
      eapply wp_mono; [eapply (sim_green_build env Henv _ _ _ _ _ (Node (gkind x) (map erase new))); [exact HS|]|].
      * intros ad. rewrite Hf, green_new_fits by done. eexists. split; [done|]. split; [done|]. split; [by apply wfg_with_offsets|]. unfold kids at 1. simpl. rewrite with_offsets_snd. split.
        -- intros z Hz. unfold new in Hz. apply elem_of_list_lookup in Hz as [j Hj]. apply list_lookup_insert_Some in Hj as [(_&E&_)|(_&Hj)]; [subst z; by apply live_elem|].
           apply (live_kid _ x); [by apply live_elem|]. by eapply elem_of_list_lookup_2.
        -- f_equal. rewrite <- (with_offsets_snd 0 new) at 2. by rewrite map_map.
      * intros g' h1 (He'&HS1). apply wp_ret. split; [done|]. exists zs, lk. by eapply sim_add_green.
    + apply N.leb_gt in Eb. unfold mbind, hm_bind, h_green_build. by rewrite Hf, green_new_overflow.
  - (* a child of a green node *)
    apply meets_slot. intros t Ht. destruct (sim_gslot _ _ _ _ _ _ _ _ Hsim Ht) as (x&Hx&He&Hin). rewrite Hx. apply meets_ill. intros Hn.
    change (h_slot (Some (Some x)) ≫= ?f) with (f x). cbv beta. eapply meets_read; [by eapply sim_green_read|]. fold (kids x).
    assert (Ekids : tchildren t = map erase (kids x)). { rewrite <- He. destruct x; [|done]. unfold kids. simpl. by rewrite map_map. }
    rewrite Ekids, list_lookup_fmap. destruct (kids x !! i) as [y|] eqn:Ey; simpl; [|done].
    apply wp_bind. eapply wp_mono; [eapply sim_green_own_kid; [exact HS|exact Hin|by eapply elem_of_list_lookup_2]|].
    intros [] h1 HS1. apply wp_ret. split; [done|]. exists zs, lk. by eapply sim_add_green.
  - (* a green element itself *)
    apply meets_slot. intros t Ht. destruct (sim_gslot _ _ _ _ _ _ _ _ Hsim Ht) as (x&Hx&He&Hin). rewrite Hx.
    change (h_slot (Some (Some x)) ≫= ?f) with (f x). cbv beta. eapply meets_read; [by eapply sim_green_read|].
    pose proof (greens_wfg _ _ _ _ HS) as HG. rewrite Forall_forall in HG. specialize (HG x Hin).
    rewrite (wfg_text_len x HG). apply wp_ret. split; [|by exists zs, lk]. simpl. subst t. by rewrite erase_kind.
Qed.

(** ** Programs *)
(** proof device, no counterpart in the code *)
Definition run_post (r : sst * list obs) (r' : hst * list obs) (h : heap) : Prop := r.2 = r'.2 /\ simulates r.1 r'.1 h.
Lemma sim_run prog : forall st hs h, simulates st hs h -> meets (s_run prog st) (hrun env prog hs) run_post h.
Proof using Henv.
  induction prog as [|o prog IH]; intros st hs h Hsim; cbn [s_run hrun]; [by apply wp_ret|].
  eapply meets_bind; [by apply sim_step|]. cbv beta. intros [st1 x] [hs1 x'] h1 (Ex&Hsim1). simpl in Ex, Hsim1. subst x'.
  eapply meets_bind; [by apply IH|]. cbv beta. intros [st2 xs] [hs2 xs'] h2 (Exs&Hsim2). simpl in Exs, Hsim2. subst xs'. by apply wp_ret.
Qed.
End prog.

(** a client program from the start *)
Lemma client_sim env prog : henv_ok env -> meets (s_run prog s_init) (hrun env prog h_init) run_post (HP ∅ [] 0).
Proof. intros Henv. apply sim_run; [done|]. apply simulates_init. Qed.
Lemma s_run_app p1 p2 st : s_run (p1 ++ p2) st = ('(st, xs) ← s_run p1 st; '(st, ys) ← s_run p2 st; SOk (st, xs ++ ys)).
Proof.
  revert st. induction p1 as [|o p1 IH]; intros st; cbn [app s_run].
  - simpl. by destruct (s_run p2 st) as [[]| | |].
  - destruct (s_step o st) as [[st1 x]| | |]; cbn [mbind sres_bind]; [|done..]. rewrite IH. destruct (s_run p1 st1) as [[st2 xs]| | |]; cbn [mbind sres_bind]; [|done..].
    by destruct (s_run p2 st2) as [[]| | |].
Qed.
Lemma hrun_app env p1 p2 hs h : hrun env (p1 ++ p2) hs h = ('(hs, xs) ← hrun env p1 hs; '(hs, ys) ← hrun env p2 hs; mret (hs, xs ++ ys)) h.
Proof.
  revert hs h. induction p1 as [|o p1 IH]; intros hs h; cbn [app hrun]; unfold mret, hm_ret, mbind, hm_bind.
  - by destruct (hrun env p2 hs h) as [[[]|] ?].
  - destruct (hstep env o hs h) as [[[hs1 x]|] h1]; [|done]. rewrite IH. unfold mret, hm_ret, mbind, hm_bind. destruct (hrun env p1 hs1 h1) as [[[hs2 xs]|] h2]; [|done].
    by destruct (hrun env p2 hs2 h2) as [[[]|] ?].
Qed.

(** ** What is left at the end *)
(** nothing but the roots of the leaked trees *)
Lemma sim_end st hs h : simulates st hs h -> (forall o, o ∈ s_handles st -> o = None) ->
  size (hn h) = length (s_leaked st) /\ (s_leaked st = [] -> (forall o, o ∈ s_greens st -> o = None) -> ow h = []).
Proof.
  intros (zs&lk&Hsim) Hnone. pose proof (sm_sim _ _ _ _ _ _ Hsim) as HS.
  assert (Ez : somes zs = []).
  { destruct (somes zs) as [|z l] eqn:E; [done|]. exfalso. assert (Some z ∈ zs) as Hz by (apply elem_slot; rewrite E; left).
    assert (Some z.2 ∈ s_handles st) as Hz2. { rewrite (sm_pos _ _ _ _ _ _ Hsim). apply elem_of_list_fmap. by exists (Some z). } by apply Hnone in Hz2. }
  rewrite Ez in HS. simpl in HS. destruct HS as [Hi [H1 H2]]. pose proof Hi as (K&R&Hs&Ho&Hl&Hc).
  assert (Hroots : forall z, z ∈ lk -> exists cz, pc (P h) !! z.1 = Some cz /\ o_par cz = None /\ loc (pc (P h)) z.1 z.1 []).
  { intros [x [n p]] Hz. destruct (H1 _ Hz) as (r&m&Hlz&_). destruct (sm_leak_root _ _ _ _ _ _ Hsim _ Hz) as [Ep _]. simpl in *. subst p.
    destruct (loc_fun_root _ _ _ Hlz) as [-> Hr]. destruct (loc_gsub _ _ Hs _ _ _ Hlz) as (cr&_&Hcr&_). eauto. }
  assert (Hdom : forall y, is_Some (pc (P h) !! y) <-> y ∈ map fst lk).
  { intros y. split.
    - intros (cy&Hy). destruct (loc_exists _ _ Hs y ltac:(eauto)) as (r&p&Hly).
      destruct (below_handle _ _ _ Hi (S (gsize (o_grn cy))) y cy r p ltac:(lia) Hy Hly) as (u&s&Hu&Hlu).
      apply elem_of_map in Hu as ([xz hz]&->&Hz). destruct (Hroots _ Hz) as (cz&_&_&Hlz). simpl in Hlz, Hlu. destruct (loc_fun _ _ _ _ Hlz _ _ Hlu) as [Er E].
      apply app_eq_nil in E as [-> _]. destruct (loc_fun_root _ _ _ Hly) as [E2 _]. subst. apply elem_of_map. by exists (y, hz).
    - intros (z&->&Hz)%elem_of_map. destruct (Hroots z Hz) as (cz&Hcz&_). eauto. }
  assert (Hnd : NoDup (map fst lk)).
  { pose proof (sm_leak_nodup _ _ _ _ _ _ Hsim) as Hn. rewrite (sm_leaked _ _ _ _ _ _ Hsim) in Hn. apply NoDup_alt. intros i j x Hx Hy.
    apply (list_lookup_fmap_inv fst lk) in Hx as (zi&->&Ei). apply (list_lookup_fmap_inv fst lk) in Hy as (zj&Hy&Ej). apply (NoDup_lookup _ i j zi.2.1 Hn).
    - etrans; [apply (list_lookup_fmap (fun z : hpos => z.2.1))|]. exact (f_equal (fmap (fun z : hpos => z.2.1)) Ei).
    - etrans; [apply (list_lookup_fmap (fun z : hpos => z.2.1))|].
      etrans; [exact (f_equal (fmap (fun z : hpos => z.2.1)) Ej)|]. simpl. f_equal.
      apply elem_of_list_lookup_2 in Ei. apply elem_of_list_lookup_2 in Ej. destruct (H1 _ Ei) as (ri&mi&Hli&_). destruct (H1 _ Ej) as (rj&mj&Hlj&_).
      apply (H2 _ _ _ _ Ej Ei Hlj Hli). destruct zi, zj. simpl in *. subst. by destruct (loc_fun _ _ _ _ Hlj _ _ Hli). }
  split.
  - rewrite P_size. assert (dom (pc (P h)) = list_to_set (map fst lk) :> gset id) as E.
    { apply set_eq. intros y. rewrite elem_of_dom, elem_of_list_to_set. apply Hdom. }
    rewrite <- size_dom, E, size_list_to_set by done. rewrite (sm_leaked _ _ _ _ _ _ Hsim). by rewrite !map_length.
  - intros El Hg. rewrite (sm_leaked _ _ _ _ _ _ Hsim) in El. apply fmap_nil_inv in El. subst lk.
    assert (somes (h_greens hs) = []) as Eg.
    { destruct (somes (h_greens hs)) as [|g l] eqn:E; [done|]. exfalso. assert (Some g ∈ h_greens hs) as Hin by (apply elem_slot; rewrite E; left).
      assert (Some (erase g) ∈ s_greens st) as Hin2. { rewrite (sm_greens _ _ _ _ _ _ Hsim). apply elem_of_list_fmap. by exists (Some g). } by apply Hg in Hin2. }
    pose proof (on_perm _ _ _ _ Ho) as Hp. rewrite Eg, app_nil_r in Hp. assert (R = []) as ->.
    { destruct R as [|x R']; [done|]. exfalso. destruct (proj1 (on_R _ _ _ _ Ho x) ltac:(left)) as (cx&Hx&_).
      assert (x ∈ map fst ([] : list hpos)) as Hin by (apply Hdom; eauto). by apply elem_of_nil in Hin. }
    simpl in Hp. symmetry in Hp. by apply Permutation_nil in Hp.
Qed.
