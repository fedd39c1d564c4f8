(** The containers and the blocks hold the arrays of the specification. *)
From Verif Require Import Base ListAux NdSpec NdModel NdAux NdMem NdInv.
From Coq Require Import Permutation.
Local Open Scope Z_scope.

Ltac pj := cbn [a_dt a_shape a_strides a_cells a_offset a_given c_rc c_dt c_shape c_strides c_data c_off c_dl c_owner].
(** ** A container holds an array *)
Record crel (m : list (list Z)) (c : cont) (a : arr) : Prop := {
  cr_dt : a_dt a = c_dt c;
  cr_sh : a_shape a = c_shape c;
  cr_len : length (c_strides c) = length (c_shape c);
  cr_alen : length (a_strides a) = length (c_shape c);
  cr_sz : sizable (c_shape c) = true;
  cr_empty : size (c_shape c) = 0 -> a_cells a = [];
  cr_cells : size (c_shape c) <> 0 -> exists b o, c_data c = Some (b, o) /\ a_strides a = c_strides c /\
    a_cells a = map (pair b) (offs (o + c_off c) (c_shape c) (c_strides c));
  cr_inb : Forall (inb m) (a_cells a);
  cr_off : a_offset a = false -> c_off c = 0;
  cr_dl : c_dl c = false -> if size (c_shape c) =? 0 then hd 0 (c_shape c) * hd 0 (c_strides c) = 0
                            else c_strides c = row_major (c_shape c);
  cr_given : a_given a = false -> size (c_shape c) <> 0 -> c_strides c = row_major (c_shape c) -> c_dl c = false }.

Lemma crel_mono m m' c a : (forall x, inb m x -> inb m' x) -> crel m c a -> crel m' c a.
Proof. intros H [? ? ? ? ? ? ? I ? ? ?]. constructor; try easy. eapply Forall_impl; eauto. Qed.
Lemma crel_rc m c a n : crel m c a -> crel m (set_rc c n) a.
Proof. intros [? ? ? ? ? ? ? ? ? ? ?]. constructor; easy. Qed.

Definition cell_at (c : cont) (idx : list Z) : nat * Z :=
  match c_data c with Some (b, o) => (b, o + c_off c + dot idx (c_strides c)) | None => (0%nat, 0) end.
Lemma crel_nonneg m c a : crel m c a -> nonneg (c_shape c).
Proof. intros R. apply sizable_nonneg. eapply cr_sz; eauto. Qed.
Lemma cells_at m c a : crel m c a -> a_cells a = map (cell_at c) (indices (c_shape c)).
Proof.
  intros R. destruct (Z.eq_dec (size (c_shape c)) 0) as [E|E].
  - rewrite (cr_empty _ _ _ R E), indices_nil; [easy|eapply crel_nonneg; eauto|easy].
  - destruct (cr_cells _ _ _ R E) as (b & o & D & _ & ->). rewrite offs_indices by apply (cr_len _ _ _ R).
    rewrite map_map. apply map_ext. intros idx. unfold cell_at. now rewrite D.
Qed.
Lemma in_indices_size sh idx : nonneg sh -> In idx (indices sh) -> size sh <> 0.
Proof. intros N I E. rewrite indices_nil in I; easy. Qed.
Lemma cell_ptr m c a idx : crel m c a -> In idx (indices (c_shape c)) ->
  padd (raw c) (dot idx (c_strides c)) = Some (cell_at c idx) /\ inb m (cell_at c idx) /\ blk_of c = Some (fst (cell_at c idx)).
Proof.
  intros R I. assert (E : size (c_shape c) <> 0) by (eapply in_indices_size; eauto; eapply crel_nonneg; eauto).
  destruct (cr_cells _ _ _ R E) as (b & o & D & _ & _). split; [|split].
  - unfold raw, cell_at. rewrite D. easy.
  - pose proof (cr_inb _ _ _ R) as F. rewrite (cells_at _ _ _ R), Forall_forall in F. apply F. now apply in_map.
  - unfold blk_of, cell_at. now rewrite D.
Qed.
Lemma values_at m c a : crel m c a -> values m a = map (fun idx => value m (cell_at c idx)) (indices (c_shape c)).
Proof. intros R. unfold values. rewrite (cells_at _ _ _ R), map_map. easy. Qed.
Lemma values_length m c a : crel m c a -> length (values m a) = Z.to_nat (size (c_shape c)).
Proof. intros R. rewrite (values_at _ _ _ R), map_length. apply indices_length. eapply crel_nonneg; eauto. Qed.

(** Contiguous or not. *)
Lemma contig_nonempty m c a : crel m c a -> size (c_shape c) <> 0 -> is_contiguous c = contiguous a.
Proof.
  intros R E. unfold is_contiguous, contiguous. destruct (cr_cells _ _ _ R E) as (b & o & D & S & _).
  rewrite S, (cr_sh _ _ _ R). destruct (c_dl c) eqn:DL.
  - apply is_contig_eq; [apply (cr_len _ _ _ R)|apply (cr_sz _ _ _ R)].
  - pose proof (cr_dl _ _ _ R DL) as H. destruct (Z.eqb_spec (size (c_shape c)) 0); [easy|]. rewrite H. symmetry. apply list_eqb_refl.
Qed.
Lemma contig_true m c a : crel m c a -> is_contiguous c = true ->
  (size (c_shape c) <> 0 -> c_strides c = row_major (c_shape c)) /\
  (c_shape c <> [] -> first_product (c_shape c) (c_strides c) = Ok (size (c_shape c))).
Proof.
  intros R C. assert (H : size (c_shape c) <> 0 -> c_strides c = row_major (c_shape c)).
  { intros E. rewrite (contig_nonempty _ _ _ R E) in C. unfold contiguous in C. apply list_eqb_eq in C.
    destruct (cr_cells _ _ _ R E) as (b & o & D & S & _). rewrite <- S, C. now rewrite (cr_sh _ _ _ R). }
  split; [easy|]. intros N. pose proof (cr_len _ _ _ R) as L.
  destruct (c_shape c) as [|n sh] eqn:Sh; [easy|]. destruct (c_strides c) as [|s st] eqn:St; [easy|].
  unfold first_product. f_equal. destruct (Z.eq_dec (size (n :: sh)) 0) as [E|E].
  - rewrite E. unfold is_contiguous in C. destruct (c_dl c) eqn:DL.
    + rewrite Sh, St in C. rewrite is_contig_eq in C by (try easy; rewrite <- Sh; apply (cr_sz _ _ _ R)).
      apply list_eqb_eq in C. cbn [row_major] in C. injection C as -> _. rewrite <- size_cons. easy.
    + pose proof (cr_dl _ _ _ R DL) as H0. rewrite Sh, St, E in H0. exact H0.
  - specialize (H E). cbn [row_major] in H. injection H as -> _. easy.
Qed.

(** ** A machine state holds a state of the specification *)
Definition vrel (m : list (list Z)) (h : heap) (x : option nat) (y : option arr) : Prop :=
  match x, y with
  | None, None => True
  | Some i, Some a => exists c, cont_at h i c /\ crel m c a
  | _, _ => False
  end.
Record rel (st : mstate) (s : state) : Prop := {
  r_vars : Forall2 (vrel (mem s) (m_heap st)) (m_vars st) (vars s);
  r_inv : inv [] (m_vars st) (m_heap st);
  r_mem : memrel (mem s) (blks (m_heap st)) }.

Lemma Forall2_nth {A B} (R : A -> B -> Prop) l l' k : Forall2 R l l' ->
  match nth_error l k, nth_error l' k with Some x, Some y => R x y | None, None => True | _, _ => False end.
Proof. intros F. revert k; induction F; intros [|k]; cbn; auto. apply IHF. Qed.
Lemma rel_holds st s w a : rel st s -> holds s w = Some a ->
  exists p c, nth_error (m_vars st) w = Some (Some p) /\ handle st w = Ok p /\ cont_at (m_heap st) p c /\ crel (mem s) c a.
Proof.
  intros R H. pose proof (Forall2_nth _ _ _ w (r_vars _ _ R)) as F. unfold holds in H.
  destruct (nth_error (vars s) w) as [[a'|]|] eqn:E; [|easy..]. injection H as ->.
  destruct (nth_error (m_vars st) w) as [[p|]|] eqn:E'; [|easy..]. destruct F as [c [C D]].
  exists p, c. split; [easy|]. split; [unfold handle; now rewrite E'|]. easy.
Qed.
Lemma rel_free st s v : rel st s -> free s v = true -> nth_error (m_vars st) v = Some None.
Proof.
  intros R H. pose proof (Forall2_nth _ _ _ v (r_vars _ _ R)) as F. unfold free in H.
  destruct (nth_error (vars s) v) as [[a'|]|] eqn:E; [easy| |easy].
  destruct (nth_error (m_vars st) v) as [[p|]|] eqn:E'; easy.
Qed.
Lemma vrel_mono m m' h h' x y : vrel m h x y ->
  (forall c, inb m c -> inb m' c) ->
  (forall i c, x = Some i -> cont_at h i c -> exists n, cont_at h' i (set_rc c n)) -> vrel m' h' x y.
Proof.
  unfold vrel. destruct x as [i|], y as [a|]; try easy. intros (c & C & R) M H.
  destruct (H i c eq_refl C) as [n C']. exists (set_rc c n). split; [easy|]. apply crel_rc. eapply crel_mono; eauto.
Qed.
Lemma set_rc_id c : set_rc c (c_rc c) = c. Proof. now destruct c. Qed.
Lemma Forall2_impl_in {A B} (R R' : A -> B -> Prop) l l' : (forall x y, In x l -> R x y -> R' x y) -> Forall2 R l l' -> Forall2 R' l l'.
Proof. intros H F. induction F; constructor; [apply H; [now left|easy]|]. apply IHF. intros a b I. apply H. now right. Qed.

(** What a step must do. *)
Definition good (r : res (mstate * result)) (s : state) (l : list outcome) : Prop :=
  match r with
  | Ok (st', x) => exists y, In y l /\ snd (apply y s) = x /\ rel st' (fst (apply y s))
  | Exn _ => In Raise l
  | _ => False
  end.

Lemma good_alias st s v w a p l : rel st s -> free s v = true -> holds s w = Some a -> handle st w = Ok p ->
  In (Bind v (Some a)) l -> good (bound st v (let! h := incref (m_heap st) p in Ok (h, p))) s l.
Proof.
  intros R F H Hp I. destruct (rel_holds _ _ _ _ R H) as (p' & c & E & Hp' & C & D).
  assert (p' = p) by congruence. subst p'. unfold bound. rewrite (rel_free _ _ _ R F).
  unfold incref, hget. rewrite C. cbn [bind]. cbn [good]. exists (Bind v (Some a)). split; [easy|]. split; [easy|]. cbn [apply fst].
  constructor; cbn [m_vars m_heap mem vars blks].
  - apply Forall2_lset.
    + eapply Forall2_impl_in; [|apply (r_vars _ _ R)]. intros x y Ix V. eapply vrel_mono; [exact V|easy|]. intros i d -> Di.
      destruct (Nat.eq_dec i p) as [->|N].
      * rewrite (cont_fun _ _ _ _ Di C). eexists. apply cont_lset; auto.
      * exists (c_rc d). rewrite set_rc_id. apply cont_lset; auto.
    + exists (set_rc c (c_rc c + 1)). split; [apply cont_lset; auto|now apply crel_rc].
  - apply inv_take; [|now apply (rel_free _ _ _ R)]. apply inv_inc; [apply (r_inv _ _ R)|easy].
  - apply (r_mem _ _ R).
Qed.

Lemma good_view st s v w a p c c' a' l : rel st s -> free s v = true -> holds s w = Some a -> handle st w = Ok p ->
  cont_at (m_heap st) p c -> c_owner c' = View p -> c_rc c' = 1%nat -> blk_of c' = blk_of c -> crel (mem s) c' a' ->
  In (Bind v (Some a')) l ->
  exists h i, add_view (m_heap st) p c' = Ok (h, i) /\
    good (Ok (MState h (lset (m_vars st) v (Some i)), Done)) s l.
Proof.
  intros R F H Hp C O Rc B D I. unfold add_view, incref, hget. rewrite C. cbn [bind add_cont].
  eexists _, _. split; [reflexivity|]. exists (Bind v (Some a')). split; [easy|]. split; [easy|]. cbn [apply fst].
  cbn [conts blks].
  set (h1 := Heap (lset (conts (m_heap st)) p (Some (set_rc c (c_rc c + 1)))) (blks (m_heap st))).
  assert (I1 : inv [p] (m_vars st) h1) by (apply inv_inc; [apply (r_inv _ _ R)|easy]).
  constructor; cbn [m_vars m_heap mem vars blks].
  - apply Forall2_lset.
    + eapply Forall2_impl_in; [|apply (r_vars _ _ R)]. intros x y Ix V. eapply vrel_mono; [exact V|easy|]. intros i d -> Di.
      assert (K : exists n, cont_at h1 i (set_rc d n)).
      { destruct (Nat.eq_dec i p) as [->|N].
        - rewrite (cont_fun _ _ _ _ Di C). eexists. apply cont_lset; auto.
        - exists (c_rc d). rewrite set_rc_id. apply cont_lset; auto. }
      destruct K as [n K]. exists n. apply nth_app_l. exact K.
    + exists c'. split; [apply nth_app_here|easy].
  - change (inv [] (lset (m_vars st) v (Some (length (conts h1)))) (Heap (conts h1 ++ [Some c']) (blks h1))).
    apply inv_add with (ext := [p]).
    + exact I1.
    + now apply (rel_free _ _ _ R).
    + easy.
    + intros i. rewrite cnt_cons. unfold kid_of. cbn [is_kid]. rewrite O. rewrite (Nat.eqb_sym i p). unfold cnt. cbn. lia.
    + easy.
    + rewrite O. split.
      * unfold h1. cbn [conts]. rewrite lset_length. eapply cont_lt; eauto.
      * exists (set_rc c (c_rc c + 1)). split; [apply cont_lset; auto|easy].
  - apply (r_mem _ _ R).
Qed.

Lemma good_none st s v c a l : rel st s -> free s v = true -> c_owner c = Own -> c_rc c = 1%nat -> c_data c = None ->
  crel (mem s) c a -> In (Bind v (Some a)) l -> good (bound st v (Ok (add_cont (m_heap st) c))) s l.
Proof.
  intros R F O Rc B D I. unfold bound. rewrite (rel_free _ _ _ R F). cbn [bind add_cont].
  exists (Bind v (Some a)). split; [easy|]. split; [easy|]. cbn [apply fst].
  constructor; cbn [m_vars m_heap mem vars blks].
  - apply Forall2_lset.
    + eapply Forall2_impl_in; [|apply (r_vars _ _ R)]. intros x y Ix V. eapply vrel_mono; [exact V|easy|]. intros i d -> Di.
      exists (c_rc d). rewrite set_rc_id. now apply nth_app_l.
    + exists c. split; [apply nth_app_here|easy].
  - apply inv_add with (ext := []); [apply (r_inv _ _ R)|now apply (rel_free _ _ _ R)|easy| |easy|].
    + intros i. unfold kid_of. cbn. now rewrite O.
    + rewrite O. unfold blk_of. now rewrite B.
  - apply (r_mem _ _ R).
Qed.

Lemma inb_app m l x : inb m x -> inb (m ++ [l]) x.
Proof.
  intros H. pose proof (inb_block _ _ H). unfold inb in *. rewrite app_nth1 by easy. easy.
Qed.
Lemma inb_new (m : list (list Z)) l k : 0 <= k < Z.of_nat (length l) -> inb (m ++ [l]) (length m, k).
Proof. intros H. unfold inb. cbn [fst snd]. rewrite app_nth2, Nat.sub_diag by lia. exact H. Qed.
(** A new block with a container that owns it. *)
Lemma good_block st s v c a xs y l : rel st s -> free s v = true -> root c -> c_rc c = 1%nat ->
  blk_of c = Some (length (blks (m_heap st))) -> crel (mem s ++ [xs]) c a ->
  apply y s = (State (mem s ++ [xs]) (lset (vars s) v (Some a)), Done) -> In y l ->
  good (bound st v (Ok (add_cont (Heap (conts (m_heap st)) (blks (m_heap st) ++ [Some (map Some xs)])) c))) s l.
Proof.
  intros R F Rt Rc B D E I. unfold bound. rewrite (rel_free _ _ _ R F). cbn [bind add_cont].
  exists y. split; [easy|]. rewrite E. split; [easy|]. cbn [fst].
  constructor; cbn [m_vars m_heap mem vars blks conts].
  - apply Forall2_lset.
    + eapply Forall2_impl_in; [|apply (r_vars _ _ R)]. intros x z Ix V. eapply vrel_mono; [exact V|intros q; apply inb_app|]. intros i d -> Di.
      exists (c_rc d). rewrite set_rc_id. now apply nth_app_l.
    + exists c. split; [apply nth_app_here|easy].
  - apply inv_root; [apply (r_inv _ _ R)|now apply (rel_free _ _ _ R)|easy|easy|easy].
  - apply memrel_app. apply (r_mem _ _ R).
Qed.
Lemma crel_fresh m d sh xs : sizable sh = true -> length xs = Z.to_nat (size sh) ->
  crel (m ++ [xs]) (Cont 1 (Some (length m, 0)) 0 sh (row_major sh) false d Own) (fresh m d sh).
Proof.
  intros S L. pose proof (sizable_nonneg _ S) as N. pose proof (size_nonneg _ N) as P. unfold fresh. constructor; pj; try easy.
  - apply row_major_length.
  - apply row_major_length.
  - intros E. rewrite E. easy.
  - intros _. exists (length m), 0. do 2 (split; [easy|]). rewrite offs_row_major by easy. f_equal.
    rewrite <- (map_id (zrange (size sh))) at 1. apply map_ext. easy.
  - apply Forall_map. apply Forall_forall. intros k K. apply in_zrange in K. apply inb_new. lia.
  - intros _. destruct (Z.eqb_spec (size sh) 0) as [E|]; [|easy]. destruct sh as [|n sh]; [easy|]. cbn [hd row_major]. rewrite <- size_cons. easy.
Qed.
Lemma good_new st s v d sh xs f l : rel st s -> free s v = true -> sizable sh = true -> length xs = Z.to_nat (size sh) ->
  f (Cont 1 (Some (length (blks (m_heap st)), 0)) 0 sh (row_major sh) false d Own)
    (blks (m_heap st) ++ [Some (repeat None (Z.to_nat (size sh)))]) = Ok (blks (m_heap st) ++ [Some (map Some xs)]) ->
  In (New v d sh xs) l -> good (bound st v (filled (m_heap st) sh d f)) s l.
Proof.
  intros R F S L E I. unfold filled, empty_array. rewrite data_size_eq, gen_strides_eq by easy. cbn [conts blks].
  rewrite E. cbn [bind conts].
  eapply good_block with (a := fresh (mem s) d sh) (y := New v d sh xs); eauto; try easy.
  rewrite <- (memrel_length _ _ (r_mem _ _ R)). now apply crel_fresh.
Qed.

Lemma good_write st s bl cs xs l : rel st s -> memrel (puts (mem s) cs xs) bl -> same_life (blks (m_heap st)) bl ->
  In (Write cs xs) l -> good (changed st (Ok (Heap (conts (m_heap st)) bl))) s l.
Proof.
  intros R M S I. unfold changed. cbn [bind]. exists (Write cs xs). split; [easy|]. split; [easy|]. cbn [apply fst].
  constructor; cbn [m_vars m_heap mem vars blks].
  - eapply Forall2_impl_in; [|apply (r_vars _ _ R)]. intros x y Ix V. eapply vrel_mono; [exact V| |].
    + intros q Q. unfold inb in *. now rewrite puts_nth_length.
    + intros i d -> Di. exists (c_rc d). now rewrite set_rc_id.
  - apply inv_life; [apply (r_inv _ _ R)|easy].
  - easy.
Qed.
Lemma good_same st s o l : rel st s -> In (Show o) l -> good (Ok (st, Shown o)) s l.
Proof. intros R I. exists (Show o). split; [easy|]. split; [easy|]. exact R. Qed.
Lemma good_nothing st s l : rel st s -> In Nothing l -> good (changed st (Ok (m_heap st))) s l.
Proof. intros R I. exists Nothing. split; [easy|]. split; [easy|]. cbn. destruct st. exact R. Qed.

Lemma memrel_freed m bl bl' : memrel m bl -> length bl' = length bl ->
  (forall b, nth_error bl' b = nth_error bl b \/ nth_error bl' b = Some None) -> memrel m bl'.
Proof.
  intros M. revert bl'; induction M as [|l o m bl H M IH]; intros bl' L B.
  - destruct bl'; [constructor|easy].
  - destruct bl' as [|o' bl']; [easy|]. constructor.
    + specialize (B 0%nat). cbn in B. destruct B as [B|B]; injection B as ->; auto.
    + apply IH; [cbn in L; lia|]. intros b. apply (B (S b)).
Qed.
Lemma good_del st s v a l : rel st s -> holds s v = Some a -> In (Bind v None) l -> good (step (Del v) st) s l.
Proof.
  intros R H I. destruct (rel_holds _ _ _ _ R H) as (p & c & E & Hp & C & D). cbn [step]. rewrite Hp. cbn [bind].
  pose proof (inv_drop _ _ _ _ _ (r_inv _ _ R) E) as I1.
  destruct (release_ok (S p) [] _ _ p I1 ltac:(lia)) as (h' & -> & I' & HC & HL & HB). cbn [bind].
  exists (Bind v None). split; [easy|]. split; [easy|]. cbn [apply fst].
  constructor; cbn [m_vars m_heap mem vars blks]; [|easy|eapply memrel_freed; eauto; apply (r_mem _ _ R)].
  assert (F : Forall2 (vrel (mem s) (m_heap st)) (lset (m_vars st) v None) (lset (vars s) v None)).
  { apply Forall2_lset; [apply (r_vars _ _ R)|easy]. }
  eapply Forall2_impl_in; [|exact F]. intros x y Ix V. eapply vrel_mono; [exact V|easy|]. intros i d -> Di.
  destruct (i_var _ _ _ I' i Ix) as [d' D']. destruct (HC _ _ D') as (n & d0 & D0 & ->).
  rewrite (cont_fun _ _ _ _ Di D0). eauto.
Qed.

(** ** Views *)
Lemma sizable_skipn k : forall sh, sizable sh = true -> sizable (skipn k sh) = true.
Proof. induction k as [|k IH]; intros sh S; [easy|]. destruct sh as [|n sh]; [easy|]. cbn. apply IH. eapply sizable_tl; eauto. Qed.
Lemma crel_view m c a sh st k off ast cells p : crel m c a -> length st = length sh -> length ast = length sh ->
  sizable sh = true -> (size sh = 0 -> cells = []) ->
  (size sh <> 0 -> exists b o, c_data c = Some (b, o) /\ ast = st /\ cells = map (pair b) (offs (o + k + off) sh st)) ->
  incl cells (a_cells a) -> (a_offset a = false -> off = 0) ->
  crel m (Cont 1 (padd (c_data c) k) off sh st (negb (is_contig sh st)) (c_dt c) (View p))
         (Arr (a_dt a) sh ast cells (a_offset a) false).
Proof.
  intros R L1 L2 S E0 E1 Inc Off. constructor; pj; try easy.
  - apply (cr_dt _ _ _ R).
  - intros E. destruct (E1 E) as (b & o & D & Es & Ec). rewrite D. exists b, (o + k). easy.
  - pose proof (cr_inb _ _ _ R) as F. rewrite Forall_forall in *. intros x I. apply F, Inc, I.
  - rewrite negb_false_iff, is_contig_eq, list_eqb_eq by easy. intros ->.
    destruct (Z.eqb_spec (size sh) 0) as [E|]; [|easy]. destruct sh as [|n sh]; [easy|]. cbn [hd row_major]. rewrite <- size_cons. easy.
  - intros _ _ ->. rewrite is_contig_eq by easy. now rewrite list_eqb_refl.
Qed.
Lemma in_firstn {A} k (l : list A) x : In x (firstn k l) -> In x l.
Proof. intros I. rewrite <- (firstn_skipn k l). apply in_or_app. now left. Qed.
Lemma in_skipn {A} k (l : list A) x : In x (skipn k l) -> In x l.
Proof. intros I. rewrite <- (firstn_skipn k l). apply in_or_app. now right. Qed.
Lemma in_part {A} n (l : list A) i x : In x (part n l i) -> In x l.
Proof. intros H. eapply in_skipn, in_firstn. exact H. Qed.
Lemma norm_index n i : match norm n i with
  | Some j => index_correction i n = j /\ 0 <= j < n
  | None => negb ((0 <=? index_correction i n) && (index_correction i n <? n)) = true end.
Proof.
  unfold norm, index_correction. destruct ((0 <=? (if i <? 0 then i + n else i)) && ((if i <? 0 then i + n else i) <? n)) eqn:E; [|easy].
  split; [easy|]. apply andb_true_iff in E. rewrite Z.leb_le, Z.ltb_lt in E. exact E.
Qed.
Lemma norm_ok n i j : norm n i = Some j -> negb ((0 <=? index_correction i n) && (index_correction i n <? n)) = false /\ index_correction i n = j /\ 0 <= j < n.
Proof.
  intros E. pose proof (norm_index n i) as H. rewrite E in H. destruct H as [-> H]. split; [|easy].
  apply negb_false_iff, andb_true_iff. rewrite Z.leb_le, Z.ltb_lt. exact H.
Qed.
Definition covers (p : option (nat * Z)) (sh st ast : list Z) (cells : list (nat * Z)) : Prop :=
  length st = length sh /\ length ast = length sh /\ nonneg sh /\ (size sh = 0 -> cells = []) /\
  (size sh <> 0 -> exists b o, p = Some (b, o) /\ ast = st /\ cells = map (pair b) (offs o sh st)).
Lemma crel_covers m c a : crel m c a -> covers (raw c) (c_shape c) (c_strides c) (a_strides a) (a_cells a).
Proof.
  intros R. split; [apply (cr_len _ _ _ R)|]. split; [apply (cr_alen _ _ _ R)|]. split; [eapply crel_nonneg; eauto|]. split; [apply (cr_empty _ _ _ R)|].
  intros E. destruct (cr_cells _ _ _ R E) as (b & o & D & S & C). exists b, (o + c_off c). unfold raw. rewrite D. easy.
Qed.
Lemma part_nil {A} n i : part n (@nil A) i = [].
Proof. unfold part. now rewrite skipn_nil, firstn_nil. Qed.
Lemma part_zero {A} (l : list A) i : part 0 l i = [].
Proof. reflexivity. Qed.
Lemma descend_pick : forall is sh st p ast cells, covers p sh st ast cells -> (length is <= length sh)%nat ->
  match pick sh ast cells is with
  | None => descend sh st p is = Exn CheckFailed
  | Some (sh', ast', cells') => exists st' k, descend sh st p is = Ok (sh', st', padd p k) /\
      sh' = skipn (length is) sh /\ incl cells' cells /\ covers (padd p k) sh' st' ast' cells'
  end.
Proof.
  induction is as [|i is IH]; intros sh st p ast cells (L1 & L2 & N & E0 & E1) L.
  - cbn [pick descend]. exists st, 0. rewrite padd_0. split; [easy|]. split; [easy|]. split; [apply incl_refl|]. exact (conj L1 (conj L2 (conj N (conj E0 E1)))).
  - destruct sh as [|n sh]; [cbn in L; lia|]. destruct st as [|s st]; [easy|]. destruct ast as [|s' ast]; [easy|].
    cbn [pick descend]. cbn in L1, L2. inversion N as [|? ? N1 N2]; subst.
    destruct (norm n i) as [j|] eqn:Nm.
    2:{ pose proof (norm_index n i) as H. rewrite Nm in H. now rewrite H. }
    destruct (norm_ok _ _ _ Nm) as (-> & -> & Hj).
    assert (CV : covers (padd p (s * j)) sh st ast (part (size sh) cells j)).
    { split; [lia|]. split; [lia|]. split; [easy|]. split.
      - intros Z0. rewrite Z0. apply part_zero.
      - intros Z1. assert (NZ : size (n :: sh) <> 0) by (rewrite size_cons; nia). destruct (E1 NZ) as (b & o & -> & Es & ->).
        injection Es as -> ->. exists b, (o + s * j). split; [easy|]. split; [easy|].
        rewrite part_map, part_offs by (try easy; lia). f_equal. f_equal. lia. }
    specialize (IH sh st (padd p (s * j)) ast (part (size sh) cells j) CV ltac:(cbn in L; lia)).
    destruct (pick sh ast (part (size sh) cells j) is) as [[[sh' ast'] cells']|]; [|exact IH].
    destruct IH as (st' & k & -> & -> & Inc & CV'). exists st', (s * j + k). rewrite padd_padd in *. split; [easy|]. split; [easy|].
    split; [|easy]. intros x Ix. eapply in_part. apply Inc. exact Ix.
Qed.
Lemma pick_long : forall is sh st cells, (length sh < length is)%nat -> pick sh st cells is = None.
Proof.
  induction is as [|i is IH]; intros sh st cells L; [cbn in L; lia|]. cbn [pick]. destruct sh as [|n sh]; [easy|].
  destruct st as [|s st]; [easy|]. destruct (norm n i); [|easy]. apply IH. cbn in L. lia.
Qed.
Lemma skipn_len_nil {A} k (l : list A) : skipn k l = [] -> (length l <= k)%nat.
Proof. intros H. pose proof (skipn_length k l) as L. rewrite H in L. cbn in L. lia. Qed.
Lemma raw_blk c b o k : padd (raw c) k = Some (b, o) -> blk_of c = Some b.
Proof. unfold raw, blk_of. destruct (c_data c) as [[b0 o0]|]; cbn; [|easy]. injection 1 as -> _. easy. Qed.
Lemma covers_view m c a sh st ast cells k k' off p : crel m c a -> covers (padd (raw c) k) sh st ast cells ->
  incl cells (a_cells a) -> sizable sh = true -> k' + off = c_off c + k -> (a_offset a = false -> off = 0) ->
  crel m (Cont 1 (padd (c_data c) k') off sh st (negb (is_contig sh st)) (c_dt c) (View p))
         (Arr (a_dt a) sh ast cells (a_offset a) false).
Proof.
  intros R (L1 & L2 & N & E0 & E1) Inc S K Off. apply crel_view; try easy. intros Z. destruct (E1 Z) as (b & o & P & Es & Ec).
  unfold raw in P. destruct (c_data c) as [[b0 o0]|]; [|easy]. cbn in P. injection P as -> <-.
  exists b, o0. split; [easy|]. split; [easy|]. rewrite Ec. f_equal. f_equal. lia.
Qed.
Lemma blk_padd c k : option_map fst (padd (c_data c) k) = blk_of c.
Proof. unfold blk_of. destruct (c_data c) as [[b o]|]; easy. Qed.

Lemma good_view_item st s v w a p c k off sh str dl a' l : rel st s -> free s v = true -> holds s w = Some a -> handle st w = Ok p ->
  cont_at (m_heap st) p c -> crel (mem s) (Cont 1 (padd (c_data c) k) off sh str dl (c_dt c) (View p)) a' ->
  In (Bind v (Some a')) l ->
  good (got st v (let! (h, i) := add_view (m_heap st) p (Cont 1 (padd (c_data c) k) off sh str dl (c_dt c) (View p)) in Ok (IArr h i))) s l.
Proof.
  intros R F H Hp C V I. unfold got. rewrite (rel_free _ _ _ R F).
  destruct (good_view _ _ _ _ _ _ _ (Cont 1 (padd (c_data c) k) off sh str dl (c_dt c) (View p)) a' l R F H Hp C eq_refl eq_refl (blk_padd _ _) V I) as (h & i & -> & G).
  exact G.
Qed.
Lemma good_view_bound st s v w a p c k off sh str dl a' l : rel st s -> free s v = true -> holds s w = Some a -> handle st w = Ok p ->
  cont_at (m_heap st) p c -> crel (mem s) (Cont 1 (padd (c_data c) k) off sh str dl (c_dt c) (View p)) a' ->
  In (Bind v (Some a')) l ->
  good (bound st v (add_view (m_heap st) p (Cont 1 (padd (c_data c) k) off sh str dl (c_dt c) (View p)))) s l.
Proof.
  intros R F H Hp C V I. unfold bound. rewrite (rel_free _ _ _ R F).
  destruct (good_view _ _ _ _ _ _ _ (Cont 1 (padd (c_data c) k) off sh str dl (c_dt c) (View p)) a' l R F H Hp C eq_refl eq_refl (blk_padd _ _) V I) as (h & i & -> & G).
  exact G.
Qed.
Lemma good_raise_got st s v e l : rel st s -> free s v = true -> In Raise l -> good (got st v (Exn e)) s l.
Proof. intros R F I. unfold got. rewrite (rel_free _ _ _ R F). exact I. Qed.
Lemma good_raise st s v e l : rel st s -> free s v = true -> In Raise l -> good (bound st v (Exn e)) s l.
Proof. intros R F I. unfold bound. rewrite (rel_free _ _ _ R F). exact I. Qed.
Lemma good_num st s v x l : rel st s -> free s v = true -> In (Show (ONum x)) l -> good (got st v (Ok (INum x))) s l.
Proof. intros R F I. unfold got. rewrite (rel_free _ _ _ R F). cbn [bind]. now apply good_same. Qed.

Lemma load_picked st s p c a q st' ast cells k : rel st s -> cont_at (m_heap st) p c -> crel (mem s) c a ->
  q = padd (raw c) k -> covers q [] st' ast cells -> incl cells (a_cells a) ->
  load (blks (m_heap st)) q = Ok (value (mem s) (nth 0 cells (0%nat, 0))) /\ exists x, cells = [x].
Proof.
  intros R C D -> (L1 & L2 & N & E0 & E1) Inc. destruct (E1 ltac:(easy)) as (b & o & P & _ & ->).
  cbn [offs map nth] in *. split; [|eauto]. rewrite P. apply load_rel.
  - apply (r_mem _ _ R).
  - eapply block_alive; [apply (r_inv _ _ R)|exact C|]. eapply raw_blk; eauto.
  - pose proof (cr_inb _ _ _ D) as F. rewrite Forall_forall in F. apply F, Inc. now left.
Qed.

Lemma ok_items st s v w a p is l : rel st s -> free s v = true -> holds s w = Some a -> handle st w = Ok p ->
  selected (mem s) v a is = Some l -> good (got st v (fused_get_item (m_heap st) p is)) s l.
Proof.
  intros R F H Hp E. destruct (rel_holds _ _ _ _ R H) as (p' & c & _ & Hp' & C & D). assert (p' = p) by congruence. subst p'.
  unfold fused_get_item, hget. rewrite C. cbn [bind]. unfold selected in E. rewrite (cr_sh _ _ _ D) in E.
  destruct (Nat.ltb_spec (length (c_shape c)) (length is)) as [L|L].
  { rewrite pick_long in E by easy. injection E as <-. apply good_raise_got; auto. now left. }
  pose proof (descend_pick is _ _ _ _ _ (crel_covers _ _ _ D) L) as P.
  destruct (pick (c_shape c) (a_strides a) (a_cells a) is) as [[[sh' ast'] cells']|].
  2:{ injection E as <-. rewrite P. apply good_raise_got; auto. now left. }
  destruct P as (st' & k & -> & Esh & Inc & CV). cbn [bind].
  destruct (Nat.eqb_spec (length (c_shape c)) (length is)) as [Le|Le].
  - assert (E0 : sh' = []) by (rewrite Esh; apply skipn_all2; lia). clear Esh. subst sh'.
    destruct (load_picked st s p c a _ _ _ _ k R C D eq_refl CV Inc) as [-> _]. cbn [rmap bind].
    injection E as <-. apply good_num; auto. now left.
  - destruct sh' as [|n sh']; [exfalso; symmetry in Esh; apply skipn_len_nil in Esh; lia|].
    assert (S : sizable (n :: sh') = true) by (rewrite Esh; apply sizable_skipn, (cr_sz _ _ _ D)).
    unfold raw. rewrite padd_padd. injection E as <-.
    eapply good_view_item; eauto; [|now left]. eapply covers_view; eauto. lia.
Qed.
Lemma ok_item st s v w a p i l : rel st s -> free s v = true -> holds s w = Some a -> handle st w = Ok p -> a_shape a <> [] ->
  selected (mem s) v a [i] = Some l -> good (got st v (get_item (m_heap st) p i)) s l.
Proof.
  intros R F H Hp NE E. destruct (rel_holds _ _ _ _ R H) as (p' & c & _ & Hp' & C & D). assert (p' = p) by congruence. subst p'.
  unfold get_item, hget. rewrite C. cbn [bind]. unfold selected in E. rewrite (cr_sh _ _ _ D) in E.
  rewrite (cr_sh _ _ _ D) in NE.
  assert (L : (length [i] <= length (c_shape c))%nat) by (destruct (c_shape c); [easy|cbn; lia]).
  pose proof (descend_pick [i] _ _ _ _ _ (crel_covers _ _ _ D) L) as P. pose proof (cr_len _ _ _ D) as Ls.
  destruct (c_shape c) as [|n sh] eqn:Sh; [easy|]. destruct (c_strides c) as [|t st'] eqn:St; [easy|].
  cbn [descend] in P.
  destruct (negb ((0 <=? index_correction i n) && (index_correction i n <? n))).
  { destruct (pick (n :: sh) (a_strides a) (a_cells a) [i]) as [[[sh' ast'] cells']|]; [destruct P as (? & ? & ? & _); easy|]. injection E as <-.
    apply good_raise_got; auto. now left. }
  destruct (pick (n :: sh) (a_strides a) (a_cells a) [i]) as [[[sh' ast'] cells']|]; [|easy].
  destruct P as (st'' & k & P & Esh & Inc & CV). injection P as <- <- Pk. rewrite <- Pk in CV.
  destruct sh as [|n' sh].
  - rewrite (Z.mul_comm _ t). destruct (load_picked st s p c a _ _ _ _ _ R C D eq_refl CV Inc) as [-> _]. cbn [rmap bind].
    injection E as <-. apply good_num; auto. now left.
  - assert (S : sizable (n' :: sh) = true) by (eapply sizable_tl; rewrite <- Sh; apply (cr_sz _ _ _ D)).
    injection E as <-. eapply good_view_item; eauto; [|now left]. eapply covers_view; eauto; [lia|apply (cr_off _ _ _ D)].
Qed.

Lemma correction_clamp n i : 0 <= n -> slice_index_correction i n = clamp n i.
Proof. intros H. unfold slice_index_correction, clamp. destruct (Z.ltb_spec i 0); [destruct (Z.ltb_spec i (- n)); lia|]. destruct (Z.ltb_spec n i); lia. Qed.
Lemma quot_div a b : 0 <= a -> 0 < b -> Z.quot a b = a / b.
Proof. intros. apply Z.quot_div_nonneg; lia. Qed.
Lemma size_head n sh : size sh = 0 -> size (n :: sh) = 0. Proof. intros E. rewrite size_cons, E. lia. Qed.
Lemma slice_count n b e t : 0 <= n -> 0 < t -> clamp n b < clamp n e ->
  let q := (clamp n e - clamp n b + t - 1) / t in 0 < q <= n /\ (forall i, 0 <= i < q -> 0 <= clamp n b + i * t < n).
Proof.
  intros Hn Ht L q. pose proof (clamp_range n b Hn). pose proof (clamp_range n e Hn).
  assert (Q : q * t <= clamp n e - clamp n b + t - 1 < (q + 1) * t).
  { subst q. pose proof (Z.div_mod (clamp n e - clamp n b + t - 1) t ltac:(lia)). pose proof (Z.mod_pos_bound (clamp n e - clamp n b + t - 1) t Ht). nia. }
  split; [split; nia|]. intros i Hi. nia.
Qed.
Lemma sizable_head n k sh : sizable (n :: sh) = true -> 0 <= k <= n -> sizable (k :: sh) = true.
Proof.
  rewrite !sizable_alt. intros [N S] K. inversion N; subst. split; [constructor; [lia|easy]|].
  cbn [map] in *. rewrite size_cons in *. pose proof (max_size_pos sh). assert (Z.max 1 k <= Z.max 1 n) by lia. nia.
Qed.
Lemma offs_parts n sh o s st (b : nat) ps : nonneg (n :: sh) -> length st = length sh -> (forall i, In i ps -> 0 <= i < n) ->
  flat_map (part (size sh) (map (pair b) (offs o (n :: sh) (s :: st)))) ps = map (pair b) (flat_map (fun j => offs (o + j * s) sh st) ps).
Proof.
  intros N L H. rewrite map_flat_map. apply flat_map_ext_in. intros j J. rewrite part_map. f_equal. apply part_offs; auto.
Qed.
Lemma ok_slice st s v w a p b e t l : rel st s -> free s v = true -> holds s w = Some a -> handle st w = Ok p ->
  meaning (Slice v w b e t) s = Some l -> good (bound st v (get_slice (m_heap st) p b e t)) s l.
Proof.
  intros R F H Hp E. destruct (rel_holds _ _ _ _ R H) as (p' & c & _ & Hp' & C & D). assert (p' = p) by congruence. subst p'.
  unfold meaning, with_free, with_arr, raise_if, unless in E. rewrite F, H in E. rewrite (cr_sh _ _ _ D) in E.
  pose proof (cr_len _ _ _ D) as L1. pose proof (cr_alen _ _ _ D) as L2. pose proof (crel_nonneg _ _ _ D) as N.
  destruct (c_shape c) as [|n sh] eqn:Sh; [easy|]. destruct (a_strides a) as [|d ast] eqn:As; [easy|].
  destruct (c_strides c) as [|d' st'] eqn:St; [easy|]. inversion N as [|? ? N1 N2]; subst.
  unfold get_slice. destruct (Z.leb_spec t 0) as [T|T].
  { injection E as <-. apply good_raise; auto. now left. }
  unfold hget. rewrite C. cbn [bind]. rewrite Sh, St. rewrite !correction_clamp by easy.
  destruct (Z.leb_spec two63 (n + t)) as [|B1]; [easy|]. cbn [orb] in E. destruct (int64b (d * t)) eqn:B2; [|easy]. cbn [negb] in E.
  injection E as <-. rewrite slice_positions_eq by easy. pose proof (clamp_range n b N1) as Cb. pose proof (clamp_range n e N1) as Ce.
  pose proof (cr_sz _ _ _ D) as Sz. rewrite Sh in Sz.
  destruct (Z.leb_spec (clamp n e) (clamp n b)) as [Le|Lt].
  - eapply good_none; try easy; [|now left]. cbn [length flat_map]. change (Z.of_nat 0) with 0.
    constructor; pj; try easy.
    + apply (cr_dt _ _ _ D).
    + eapply sizable_head; [exact Sz|lia].
  - pose proof (slice_count n b e t N1 T Lt) as [Q HQ]. set (q := (clamp n e - clamp n b + t - 1) / t) in *. cbv zeta in Q, HQ.
    rewrite wraps_id by (unfold two63 in *; lia). rewrite quot_div by lia. fold q.
    rewrite map_length, zrange_length, Z2Nat.id by lia.
    assert (ST : size sh <> 0 -> n <> 0 -> d' = d /\ st' = ast /\ exists b0 o, c_data c = Some (b0, o) /\ a_cells a = map (pair b0) (offs (o + c_off c) (n :: sh) (d' :: st'))).
    { intros Z1 Z2. pose proof (cr_cells _ _ _ D) as K. rewrite Sh, St, As in K. destruct K as (b0 & o & K1 & K2 & K3); [rewrite size_cons; nia|].
      injection K2 as -> ->. split; [easy|]. split; [easy|]. eauto. }
    eapply good_view_bound with (a' := Arr (a_dt a) (q :: sh) (d * t :: ast) (flat_map (part (size sh) (a_cells a)) (map (fun i => clamp n b + i * t) (zrange q))) (a_offset a) false); eauto; [|now left].
    { apply crel_view.
      - exact D.
      - exact L1.
      - exact L2.
      - eapply sizable_head; [exact Sz|lia].
      - intros Z0. assert (Z1 : size sh = 0) by (rewrite size_cons in Z0; nia).
        rewrite Z1. rewrite flat_map_ext_in with (g := fun _ => []); [|easy]. clear. induction (map _ _); easy.
      - intros Z0. assert (Z1 : size sh <> 0) by (rewrite size_cons in Z0; nia).
        destruct (ST Z1 ltac:(lia)) as (-> & -> & b0 & o & K1 & K2). exists b0, o. split; [easy|].
        assert (W : wraps64 (d * t) = d * t).
        { apply wraps_id. unfold int64b in B2. apply andb_true_iff in B2. rewrite Z.leb_le, Z.ltb_lt in B2. exact B2. }
        rewrite W. split; [easy|]. rewrite K2, offs_parts.
        + cbn [offs]. f_equal. rewrite flat_map_map. apply flat_map_ext. intros i. f_equal. lia.
        + easy.
        + cbn in L1. lia.
        + intros i I. apply in_map_iff in I as [j [<- J]]. apply in_zrange in J. auto.
      - intros x I. apply in_flat_map in I as [j [_ J]]. eapply in_part; eauto.
      - apply (cr_off _ _ _ D). }
Qed.

Lemma correct_axes_norms n l : correct_axes n l = match norms n l with Some r => Ok r | None => Exn CheckFailed end.
Proof.
  induction l as [|x l IH]; [easy|]. cbn [correct_axes norms]. pose proof (norm_index n x) as H.
  destruct (norm n x) as [j|] eqn:E.
  - apply norm_ok in E as (E & E1 & _). rewrite negb_false_iff in E. rewrite E, IH, E1. now destruct (norms n l).
  - rewrite negb_true_iff in H. now rewrite H.
Qed.
Lemma count_distinct_le l : 0 <= count_distinct l <= Z.of_nat (length l).
Proof. induction l as [|x l IH]; [easy|]. cbn [count_distinct length]. destruct (existsb _ _); lia. Qed.
Lemma count_distinct_eq l : (count_distinct l =? Z.of_nat (length l)) = distinct l.
Proof.
  induction l as [|x l IH]; [easy|]. cbn [count_distinct length distinct]. pose proof (count_distinct_le l).
  destruct (existsb (Z.eqb x) l); cbn [negb andb].
  - apply Z.eqb_neq. lia.
  - rewrite <- IH. destruct (Z.eqb_spec (count_distinct l) (Z.of_nat (length l))) as [->|]; [apply Z.eqb_eq; lia|apply Z.eqb_neq; lia].
Qed.
Lemma gather_permute l p : Forall (fun a => 0 <= a < Z.of_nat (length l)) p -> gather l p = Ok (permute p l).
Proof.
  induction 1 as [|a p H F IH]; [easy|]. cbn [gather permute map]. unfold rdz, rd. destruct (Z.ltb_spec a 0); [lia|].
  rewrite nth_error_nth' with (d := 0) by lia. cbn [bind]. rewrite IH. easy.
Qed.
Lemma rev_zrange n : 0 <= n -> map (fun i => n - 1 - i) (zrange n) = rev (zrange n).
Proof.
  intros H. pattern n. apply natlike_ind; [easy| |easy]. intros x Hx IH. replace (Z.succ x) with (x + 1) by lia.
  rewrite zrange_S at 2 by easy. rewrite rev_app_distr, <- IH. replace (x + 1) with (1 + x) by lia. rewrite zrange_app by lia.
  rewrite map_app. change (zrange 1) with [0]. cbn [map app rev]. f_equal; [lia|]. rewrite map_map. apply map_ext. intros; lia.
Qed.
Lemma perm_forall p n : is_perm p n -> Forall (fun a => 0 <= a < n) p.
Proof. intros P. apply Forall_forall. intros a I. apply in_zrange. eapply Permutation_in; eauto. Qed.

Lemma ok_transpose st s v w a p axes l : rel st s -> free s v = true -> holds s w = Some a -> handle st w = Ok p ->
  meaning (Transpose v w axes) s = Some l -> good (bound st v (transpose (m_heap st) p axes)) s l.
Proof.
  intros R F H Hp E. destruct (rel_holds _ _ _ _ R H) as (p' & c & _ & Hp' & C & D). assert (p' = p) by congruence. subst p'.
  unfold meaning, with_free, with_arr in E. rewrite F, H in E. rewrite (cr_sh _ _ _ D) in E.
  unfold transpose, hget. rewrite C. cbn [bind]. set (nd := Z.of_nat (length (c_shape c))) in *.
  assert (Hn : 0 <= nd) by lia.
  assert (K : (permutation nd axes = None /\ exists e, (let! perm := match axes with
       | Some l => if Z.of_nat (length l) =? nd then correct_axes nd l else Exn CheckFailed
       | None => Ok (map (fun i => nd - 1 - i) (zrange nd)) end in
       if negb (count_distinct perm =? nd) then Exn CheckFailed else Ok perm) = Exn e) \/
     exists q, permutation nd axes = Some q /\ match axes with
       | Some l => if Z.of_nat (length l) =? nd then correct_axes nd l else Exn CheckFailed
       | None => Ok (map (fun i => nd - 1 - i) (zrange nd)) end = Ok q /\ count_distinct q =? nd = true).
  { destruct axes as [ax|]; cbn [permutation].
    - rewrite correct_axes_norms. destruct (norms nd ax) as [q|] eqn:Eq.
      + destruct (norms_range _ _ _ Eq) as [L _]. rewrite L. destruct (Z.eqb_spec (Z.of_nat (length ax)) nd) as [N|N].
        * cbn [andb]. rewrite <- N, <- L, <- count_distinct_eq. destruct (count_distinct q =? _) eqn:CD.
          -- right. exists q. rewrite L, N in *. easy.
          -- left. split; [easy|]. cbn [bind]. rewrite CD. cbn. eauto.
        * left. cbn. eauto.
      + left. split; [easy|]. destruct (_ =? nd); cbn; eauto.
    - right. exists (rev (zrange nd)). split; [easy|]. rewrite rev_zrange by easy. split; [easy|].
      assert (L : Z.of_nat (length (rev (zrange nd))) = nd) by (rewrite rev_length, zrange_length; lia).
      rewrite <- L at 2. rewrite count_distinct_eq. apply distinct_nodup, NoDup_rev, zrange_nodup. }
  destruct K as [[K [e Ke]]|(q & K & Kq & Kd)]; rewrite K in E; injection E as <-.
  - destruct axes as [ax|].
    + destruct (_ =? nd); cbn [bind] in *.
      * destruct (correct_axes nd ax); cbn [bind] in *; try easy.
        -- destruct (negb _); [|easy]. apply good_raise; auto. now left.
        -- apply good_raise; auto. now left.
      * apply good_raise; auto. now left.
    + easy.
  - rewrite Kq. cbn [bind]. rewrite Kd. cbn [negb]. pose proof (permutation_perm _ _ _ Hn K) as P.
    pose proof (perm_forall _ _ P) as Pf. pose proof (cr_len _ _ _ D) as Ls. pose proof (cr_alen _ _ _ D) as La. pose proof (crel_nonneg _ _ _ D) as N.
    rewrite gather_permute by exact Pf. cbn [bind]. rewrite gather_permute by (rewrite Ls; exact Pf). cbn [bind].
    rewrite <- (padd_0 (c_data c)).
    eapply good_view_bound; eauto; [|now left]. 
    assert (Sz : size (permute q (c_shape c)) = size (c_shape c)) by (apply size_perm; eapply permute_perm; eauto).
    apply crel_view.
    + exact D.
    + unfold permute. now rewrite !map_length.
    + unfold permute. now rewrite !map_length.
    + eapply sizable_perm; [symmetry; eapply permute_perm; eauto|apply (cr_sz _ _ _ D)].
    + intros Z0. rewrite indices_nil; [easy| |easy]. apply sizable_nonneg.
      eapply sizable_perm; [symmetry; eapply permute_perm; eauto|apply (cr_sz _ _ _ D)].
    + intros Z0. rewrite Sz in Z0. destruct (cr_cells _ _ _ D Z0) as (b & o & Dt & Es & Ec). exists b, o. split; [easy|].
      rewrite Es. split; [easy|]. rewrite Ec. rewrite Z.add_0_r. symmetry. apply offs_permute with (n := nd); auto. now rewrite Ls.
    + intros x I. apply in_map_iff in I as [idx [<- I]]. rewrite (cells_at _ _ _ D).
      pose proof (source_in _ _ _ _ P eq_refl I) as J. rewrite at_index_map by easy. now apply in_map.
    + apply (cr_off _ _ _ D).
Qed.

(** *** Other shapes *)
Lemma view_raises m c a v sh l : crel m c a -> is_contiguous c = false -> view a v sh = Some l -> In Raise l.
Proof.
  intros D E. unfold view, empty. rewrite (cr_sh _ _ _ D). destruct (Z.eqb_spec (size (c_shape c)) 0) as [Z0|Z0]; cbn [orb].
  - injection 1 as <-. cbn. tauto.
  - rewrite <- (contig_nonempty _ _ _ D Z0), E, andb_false_r. injection 1 as <-. now left.
Qed.
Lemma ok_create_view st s v w a p c sh l : rel st s -> free s v = true -> holds s w = Some a -> handle st w = Ok p ->
  cont_at (m_heap st) p c -> crel (mem s) c a -> is_contiguous c = true -> sizable sh = true -> size sh = size (c_shape c) ->
  view a v sh = Some l -> good (bound st v (create_view (m_heap st) p c sh)) s l.
Proof.
  intros R F H Hp C D Ct S Sz E. unfold view, empty in E. rewrite (cr_sh _ _ _ D) in E. unfold create_view.
  set (b := Bind v _) in E.
  assert (K : In b l /\ (size (c_shape c) = 0 \/ a_given a = true -> In Raise l)).
  { destruct (Z.eqb_spec (size (c_shape c)) 0) as [Z0|Z0]; cbn [orb] in E.
    - injection E as <-. cbn. tauto.
    - rewrite <- (contig_nonempty _ _ _ D Z0), Ct, andb_true_r in E. destruct (a_given a); injection E as <-; cbn; [tauto|].
      split; [tauto|]. intros [|]; easy. }
  clear E. destruct K as [Ib Ir]. destruct (contig_true _ _ _ D Ct) as [Rm _]. destruct (c_dl c) eqn:DL.
  - apply good_raise; auto. apply Ir. destruct (Z.eq_dec (size (c_shape c)) 0) as [|Z0]; [now left|].
    destruct (a_given a) eqn:G; [now right|]. rewrite (cr_given _ _ _ D G Z0 (Rm Z0)) in DL. easy.
  - rewrite !data_size_eq by (auto; apply (cr_sz _ _ _ D)). rewrite Sz, Z.ltb_irrefl.
    rewrite gen_strides_eq by easy. rewrite <- (padd_0 (c_data c)).
    replace false with (negb (is_contig sh (row_major sh))) by (rewrite is_contig_eq, list_eqb_refl; [easy|apply row_major_length|easy]).
    eapply good_view_bound; eauto. apply crel_view.
    + exact D.
    + apply row_major_length.
    + apply row_major_length.
    + exact S.
    + intros Z0. apply (cr_empty _ _ _ D). congruence.
    + intros Z0. rewrite Sz in Z0. destruct (cr_cells _ _ _ D Z0) as (b0 & o & Dt & Es & Ec). exists b0, o. do 2 (split; [easy|]).
      rewrite Ec, (Rm Z0), Z.add_0_r. rewrite !offs_row_major by (try apply (crel_nonneg _ _ _ D); now apply sizable_nonneg). now rewrite Sz.
    + apply incl_refl.
    + apply (cr_off _ _ _ D).
Qed.

Fixpoint negs (sh : list Z) : nat := match sh with [] => 0 | n :: sh => if n <? 0 then S (negs sh) else negs sh end.
Fixpoint first_neg (sh : list Z) : Z := match sh with [] => 0 | n :: sh => if n <? 0 then 0 else 1 + first_neg sh end.
Notation known sh := (filter (fun d => 0 <=? d) sh).
Lemma negs_len sh : (length sh - length (known sh))%nat = negs sh /\ (length (known sh) <= length sh)%nat.
Proof.
  induction sh as [|n sh [IH1 IH2]]; [easy|]. cbn [filter negs length]. destruct (Z.leb_spec 0 n), (Z.ltb_spec n 0); try lia; cbn [length]; lia.
Qed.
Lemma first_neg_range sh : 0 <= first_neg sh. Proof. induction sh as [|n sh IH]; [easy|]. cbn [first_neg]. destruct (n <? 0); lia. Qed.
Lemma scan_ok sh : forall i g na z, 0 <= g -> 0 <= i -> g * size (map (Z.max 1) (known sh)) < two63 ->
  scan_shape i sh g na z =
  match negs sh with
  | O => Ok (g * size (known sh), na, z || existsb (fun d => d =? 0) sh)
  | S O => if na =? -1 then Ok (g * size (known sh), i + first_neg sh, z || existsb (fun d => d =? 0) sh) else Exn CheckFailed
  | _ => Exn CheckFailed
  end.
Proof.
  induction sh as [|n sh IH]; intros i g na z G I B.
  - cbn [scan_shape negs filter existsb]. change (size []) with 1. now rewrite orb_false_r, Z.mul_1_r.
  - cbn [scan_shape negs filter existsb first_neg]. cbn [filter] in B. destruct (Z.ltb_spec n 0) as [N|N].
    + destruct (Z.leb_spec 0 n); [lia|]. destruct (Z.eqb_spec n 0); [lia|]. cbn [orb].
      destruct (Z.eqb_spec na (-1)) as [->|].
      * rewrite IH by (auto; lia). destruct (negs sh) as [|[|k]]; [|destruct (Z.eqb_spec i (-1)); [lia|easy]|easy].
        now rewrite Z.add_0_r.
      * now destruct (negs sh).
    + destruct (Z.leb_spec 0 n); [|lia]. cbn [map] in B. rewrite size_cons in B. pose proof (max_size_pos (known sh)).
      assert (M : 1 <= Z.max 1 n) by lia. assert (M' : n <= Z.max 1 n) by lia.
      assert (K1 : g * n * size (map (Z.max 1) (known sh)) < two63) by nia.
      assert (K2 : 0 <= g * n < two63) by nia.
      rewrite wrapu_id by easy. rewrite IH by lia.
      rewrite size_cons, orb_assoc. replace (g * n * size (known sh)) with (g * (n * size (known sh))) by lia.
      replace (i + 1 + first_neg sh) with (i + (1 + first_neg sh)) by lia. easy.
Qed.
Lemma negs_0 sh : negs sh = O -> known sh = sh.
Proof. induction sh as [|n sh IH]; [easy|]. cbn [negs filter]. destruct (Z.ltb_spec n 0); [easy|]. destruct (Z.leb_spec 0 n); [|lia]. intros E. now rewrite IH. Qed.
Lemma negs_nonneg sh : nonneg sh -> negs sh = O.
Proof. induction 1 as [|n sh H _ IH]; [easy|]. cbn [negs]. destruct (Z.ltb_spec n 0); [lia|easy]. Qed.
Lemma known_zero sh : existsb (fun d => d =? 0) sh = (size (known sh) =? 0).
Proof.
  induction sh as [|n sh IH]; [easy|]. cbn [existsb filter]. destruct (Z.leb_spec 0 n); [|destruct (Z.eqb_spec n 0); [lia|exact IH]].
  rewrite size_cons. destruct (Z.eqb_spec n 0) as [->|N]; [easy|]. cbn [orb]. rewrite IH.
  destruct (Z.eqb_spec (size (known sh)) 0) as [->|]; [rewrite Z.mul_0_r; easy|]. symmetry. apply Z.eqb_neq. nia.
Qed.
Lemma lset_neg sh q : negs sh = 1%nat -> lset sh (Z.to_nat (first_neg sh)) q = map (fun d => if d <? 0 then q else d) sh.
Proof.
  induction sh as [|n sh IH]; [easy|]. cbn [negs first_neg map]. destruct (Z.ltb_spec n 0) as [N|N].
  - intros E. injection E as E. change (Z.to_nat 0) with 0%nat. cbn [lset]. f_equal.
    pose proof (negs_0 sh E) as K. clear IH. rewrite <- K at 1. clear K. induction sh as [|m sh IH]; [easy|]. cbn [filter map negs] in *.
    destruct (Z.ltb_spec m 0); [easy|]. destruct (Z.leb_spec 0 m); [|lia]. f_equal. auto.
  - intros E. pose proof (first_neg_range sh). replace (Z.to_nat (1 + first_neg sh)) with (S (Z.to_nat (first_neg sh))) by lia. cbn [lset]. f_equal. auto.
Qed.
Lemma size_subst F q sh : size (map F (map (fun d => if d <? 0 then q else d) sh)) = F q ^ Z.of_nat (negs sh) * size (map F (known sh)).
Proof.
  induction sh as [|n sh IH]; [easy|]. cbn [map filter negs]. rewrite size_cons, IH. destruct (Z.ltb_spec n 0).
  - destruct (Z.leb_spec 0 n); [lia|]. rewrite Nat2Z.inj_succ, Z.pow_succ_r by lia. lia.
  - destruct (Z.leb_spec 0 n); [|lia]. cbn [map]. rewrite size_cons. lia.
Qed.
Lemma size_pos_max sh : nonneg sh -> size sh <> 0 -> map (Z.max 1) sh = sh.
Proof.
  induction 1 as [|n sh H F IH]; intros E; [easy|]. rewrite size_cons in E. cbn [map]. rewrite IH by nia. f_equal. assert (n <> 0) by (intros ->; lia). lia.
Qed.
Lemma known_nonneg sh : nonneg (known sh).
Proof. apply Forall_forall. intros x I. apply filter_In in I as [_ I]. now apply Z.leb_le. Qed.
Lemma map_id' (l : list Z) : map (fun x => x) l = l. Proof. apply map_id. Qed.
Lemma reshaped_ok n sh sh' : 0 <= n < two63 -> oversized sh = false -> uneven n sh = false -> reshaped n sh = Some sh' -> sizable sh' = true /\ size sh' = n.
Proof.
  unfold oversized, uneven, reshaped. rewrite negb_false_iff. intros Hn Ov Un. destruct (negs_len sh) as [-> _].
  destruct (negs sh) as [|[|k]] eqn:Ng; [| |easy].
  - destruct (Z.eqb_spec (size sh) n) as [<-|]; [|easy]. injection 1 as <-. rewrite negs_0 in Ov by easy. easy.
  - destruct (Z.eqb_spec (size (known sh)) 0) as [|Z0]; [easy|]. injection 1 as <-.
    assert (Ex : existsb (fun d => d <? 0) sh = true).
    { clear -Ng. induction sh as [|m sh IH]; [easy|]. cbn [negs existsb] in *. destruct (m <? 0); [easy|]. auto. }
    rewrite Ex in Un. cbn [andb negb] in Un. rewrite negb_false_iff, Z.eqb_eq in Un.
    pose proof (known_nonneg sh) as Nk. pose proof (size_nonneg _ Nk) as Pk.
    assert (Q : size (known sh) * (n / size (known sh)) = n) by (pose proof (Z.div_mod n (size (known sh)) Z0); lia).
    assert (Q0 : 0 <= n / size (known sh)) by (apply Z.div_pos; lia).
    set (q := n / size (known sh)) in *.
    split.
    + apply sizable_alt. split.
      * apply Forall_map, Forall_forall. intros x _. destruct (Z.ltb_spec x 0); lia.
      * rewrite size_subst, Ng. change (Z.of_nat 1) with 1. rewrite Z.pow_1_r.
        apply sizable_alt in Ov as [_ Ov]. rewrite size_pos_max in Ov |- * by easy.
        destruct (Z.max_spec 1 q) as [[? ->]|[? ->]]; lia.
    + pose proof (size_subst (fun x => x) q sh) as E. rewrite !map_id', Ng in E. rewrite E. change (Z.of_nat 1) with 1. rewrite Z.pow_1_r. lia.
Qed.
Lemma ok_reshape_gen st s v w a p c sh l : rel st s -> free s v = true -> holds s w = Some a -> handle st w = Ok p ->
  cont_at (m_heap st) p c -> crel (mem s) c a -> oversized sh = false -> uneven (size (c_shape c)) sh = false ->
  match reshaped (size (c_shape c)) sh with Some sh => view a v sh | None => Some [Raise] end = Some l ->
  good (bound st v (reshape (m_heap st) p sh)) s l.
Proof.
  intros R F H Hp C D Ov Un E. unfold reshape, hget. rewrite C. cbn [bind].
  assert (Sc := cr_sz _ _ _ D). rewrite data_size_eq by easy. pose proof (sizable_size _ Sc) as Bn.
  destruct (is_contiguous c) eqn:Ct; cbn [negb].
  2:{ apply good_raise; auto. destruct (reshaped _ _); [eapply view_raises; eauto|injection E as <-; now left]. }
  assert (Ov' := Ov). unfold oversized in Ov'. rewrite negb_false_iff in Ov'. apply sizable_alt in Ov' as [Nk Bk].
  rewrite scan_ok by lia. rewrite known_zero, Z.mul_1_l. cbn [orb]. change (-1 =? -1) with true. cbn [andb].
  destruct (reshaped (size (c_shape c)) sh) as [sh'|] eqn:Rs.
  - destruct (reshaped_ok _ _ _ Bn Ov Un Rs) as [S' Z']. unfold reshaped in Rs. destruct (negs_len sh) as [Ng _]. rewrite Ng in Rs.
    destruct (negs sh) as [|[|k]] eqn:Nsh; [| |easy].
    + rewrite negs_0 by easy. cbn [bind]. change (-1 =? -1) with true. cbn [andb negb].
      destruct (Z.eqb_spec (size sh) (size (c_shape c))); [|easy]. cbn [negb]. injection Rs as <-.
      rewrite andb_false_r. eapply ok_create_view; eauto.
    + cbn [bind]. pose proof (first_neg_range sh). destruct (Z.eqb_spec (0 + first_neg sh) (-1)); [lia|]. cbn [andb negb].
      rewrite andb_true_r. destruct (Z.eqb_spec (size (known sh)) 0); [easy|]. injection Rs as <-.
      rewrite Z.add_0_l, lset_neg by easy. eapply ok_create_view; eauto.
  - injection E as <-. unfold reshaped in Rs. destruct (negs_len sh) as [Ng _]. rewrite Ng in Rs.
    destruct (negs sh) as [|[|k]] eqn:Nsh.
    + rewrite negs_0 by easy. cbn [bind]. change (-1 =? -1) with true. cbn [andb negb].
      destruct (Z.eqb_spec (size sh) (size (c_shape c))); [easy|]. cbn [negb]. apply good_raise; auto. now left.
    + cbn [bind]. pose proof (first_neg_range sh). destruct (Z.eqb_spec (0 + first_neg sh) (-1)); [lia|]. cbn [andb negb].
      rewrite andb_true_r. destruct (Z.eqb_spec (size (known sh)) 0); [|easy]. apply good_raise; auto. now left.
    + cbn [bind]. apply good_raise; auto. now left.
Qed.
Lemma ok_reshape_plain st s v w a p c sh l : rel st s -> free s v = true -> holds s w = Some a -> handle st w = Ok p ->
  cont_at (m_heap st) p c -> crel (mem s) c a -> sizable sh = true -> size sh = size (c_shape c) -> view a v sh = Some l ->
  good (bound st v (reshape (m_heap st) p sh)) s l.
Proof.
  intros R F H Hp C D S Sz E. pose proof (sizable_nonneg _ S) as N. pose proof (negs_nonneg _ N) as Ng.
  eapply ok_reshape_gen; eauto.
  - unfold oversized. rewrite negs_0 by easy. now rewrite S.
  - unfold uneven. replace (existsb (fun d => d <? 0) sh) with false; [easy|]. clear -N. induction N as [|n sh H _ IH]; [easy|]. cbn. rewrite <- IH. destruct (Z.ltb_spec n 0); [lia|easy].
  - unfold reshaped. destruct (negs_len sh) as [-> _]. rewrite Ng, Sz, Z.eqb_refl. exact E.
Qed.
