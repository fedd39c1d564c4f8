(** The operations one by one: showing arrays, making them from numbers, lists and tensors. *)
From Verif Require Import Base ListAux NdSpec NdModel NdAux NdMem NdInv NdProofs NdFill.
From Coq Require Import Permutation.
Local Open Scope Z_scope.

(** *** Lists of an array *)
Lemma collect_ok {A} (l : list Z) (f : Z -> res A) g : (forall i, In i l -> f i = Ok (g i)) -> collect l f = Ok (map g l).
Proof.
  induction l as [|i l IH]; intros H; [easy|]. cbn [collect map]. rewrite H by now left. cbn [bind]. rewrite IH; [easy|]. intros j J. apply H. now right.
Qed.
Lemma to_list_ok m : forall sh st p g, nonneg sh -> length st = length sh -> sh <> [] ->
  (forall idx, In idx (indices sh) -> load m (padd p (dot idx st)) = Ok (g idx)) ->
  to_list m p sh st = Ok (trees sh (map g (indices sh))).
Proof.
  induction sh as [|n sh IH]; intros st p g N L Ne H; [easy|]. destruct st as [|s st]; [easy|]. inversion N as [|? ? N1 N2]; subst.
  cbn [to_list trees]. destruct sh as [|n' sh].
  - cbn [indices map]. rewrite map_flat_map. cbn [map].
    rewrite collect_ok with (g := fun i => Leaf (g [i])).
    + f_equal. rewrite <- map_map with (f := fun i => g [i]) (g := Leaf). f_equal; try (induction (zrange n); cbn; [easy|]; now f_equal).
    + intros i I. apply in_zrange in I. rewrite <- (Z.add_0_r (i * s)). change (i * s + 0) with (dot [i] (s :: st)). rewrite H; [easy|].
      apply in_indices. constructor; [easy|constructor].
  - rewrite collect_ok with (g := fun i => Node (trees (n' :: sh) (map (fun idx => g (i :: idx)) (indices (n' :: sh))))).
    + f_equal. apply map_ext_in. intros i I. apply in_zrange in I. f_equal. f_equal.
      change (indices (n :: n' :: sh)) with (flat_map (fun i => map (cons i) (indices (n' :: sh))) (zrange n)).
      rewrite map_flat_map. rewrite part_flat_map with (f := fun x => map g (map (cons x) (indices (n' :: sh)))).
      * now rewrite map_map.
      * now apply size_nonneg.
      * intros j _. rewrite !map_length. now apply indices_length.
      * easy.
    + intros i I. apply in_zrange in I. rewrite IH with (g := fun idx => g (i :: idx)); [easy|easy|cbn in *; lia|easy|].
      intros idx J. rewrite padd_padd. change (i * s + dot idx st) with (dot (i :: idx) (s :: st)). apply H.
      apply in_indices. constructor; [easy|]. now apply in_indices.
Qed.
Lemma src_load0 st s p c a idx : rel st s -> cont_at (m_heap st) p c -> crel (mem s) c a -> In idx (indices (c_shape c)) ->
  load (blks (m_heap st)) (padd (raw c) (dot idx (c_strides c))) = Ok (value (mem s) (cell_at c idx)).
Proof.
  intros R C D I. destruct (cell_ptr _ _ _ _ D I) as (-> & Ib & B). pose proof (src_alive _ _ _ _ _ R C B) as A.
  destruct (cell_at c idx) as [b o]. cbn [fst] in *. apply load_rel; auto. apply (r_mem _ _ R).
Qed.
Lemma ok_to_list st s w a p l : rel st s -> holds s w = Some a -> handle st w = Ok p ->
  meaning (ToList w) s = Some l -> good (step (ToList w) st) s l.
Proof.
  intros R H Hp E. destruct (rel_holds _ _ _ _ R H) as (p' & c & _ & Hp' & C & D). assert (p' = p) by congruence. subst p'.
  cbn [step]. rewrite Hp. cbn [bind]. unfold hget. rewrite C. cbn [bind].
  unfold meaning, with_arr, unless in E. rewrite H in E. rewrite (cr_sh _ _ _ D) in E.
  destruct (nonempty (c_shape c)) eqn:Ne; [|easy]. injection E as <-.
  rewrite to_list_ok with (g := fun idx => value (mem s) (cell_at c idx)).
  - cbn [bind]. apply good_same; [easy|]. rewrite (values_at _ _ _ D). now left.
  - apply (crel_nonneg _ _ _ D).
  - apply (cr_len _ _ _ D).
  - intros E. now rewrite E in Ne.
  - intros idx I. eapply src_load0; eauto.
Qed.
Lemma ok_shape_of st s w a p l : rel st s -> holds s w = Some a -> handle st w = Ok p ->
  meaning (ShapeOf w) s = Some l -> good (step (ShapeOf w) st) s l.
Proof.
  intros R H Hp E. destruct (rel_holds _ _ _ _ R H) as (p' & c & _ & Hp' & C & D). assert (p' = p) by congruence. subst p'.
  cbn [step]. rewrite Hp. cbn [bind]. unfold hget. rewrite C. cbn [bind].
  unfold meaning, with_arr in E. rewrite H in E. rewrite (cr_sh _ _ _ D) in E. injection E as <-. apply good_same; [easy|now left].
Qed.
Lemma ok_len_of st s w a p l : rel st s -> holds s w = Some a -> handle st w = Ok p ->
  meaning (LenOf w) s = Some l -> good (step (LenOf w) st) s l.
Proof.
  intros R H Hp E. destruct (rel_holds _ _ _ _ R H) as (p' & c & _ & Hp' & C & D). assert (p' = p) by congruence. subst p'.
  cbn [step]. rewrite Hp. cbn [bind]. unfold hget. rewrite C. cbn [bind].
  unfold meaning, with_arr, unless in E. rewrite H in E. rewrite (cr_sh _ _ _ D) in E. destruct (c_shape c); [easy|]. injection E as <-. apply good_same; [easy|now left].
Qed.

Lemma mem_equal_ok m p q L f g : (forall i, In i L -> load m (padd p i) = Ok (f i) /\ load m (padd q i) = Ok (g i)) ->
  mem_equal m p q L = Ok (list_eqb (map f L) (map g L)).
Proof.
  induction L as [|i L IH]; intros H; [easy|]. cbn [mem_equal map list_eqb]. destruct (H i (or_introl eq_refl)) as [-> ->]. cbn [bind].
  destruct (f i =? g i); [|easy]. cbn [andb]. apply IH. intros j J. apply H. now right.
Qed.
Lemma dtype_eqb_eq a b : dtype_eqb a b = true <-> a = b. Proof. destruct a, b; easy. Qed.
Lemma ok_equal st s w1 w2 a b p q l : rel st s -> holds s w1 = Some a -> handle st w1 = Ok p -> holds s w2 = Some b -> handle st w2 = Ok q ->
  meaning (IsEqual w1 w2) s = Some l -> good (step (IsEqual w1 w2) st) s l.
Proof.
  intros R H1 Hp H2 Hq E.
  destruct (rel_holds _ _ _ _ R H1) as (p' & c & _ & Hp' & C & D). assert (p' = p) by congruence. subst p'.
  destruct (rel_holds _ _ _ _ R H2) as (q' & c' & _ & Hq' & C' & D'). assert (q' = q) by congruence. subst q'.
  unfold meaning, with_arr, unless, empty in E. rewrite H1, H2 in E.
  cbn [step]. rewrite Hp, Hq. cbn [bind]. unfold equal, hget. rewrite C. cbn [bind]. rewrite C'. cbn [bind].
  rewrite (cr_sh _ _ _ D), (cr_dt _ _ _ D), (cr_sh _ _ _ D'), (cr_dt _ _ _ D') in *.
  destruct (a_offset a || a_offset b) eqn:Off; [easy|]. apply orb_false_iff in Off as [O1 O2].
  set (v := dtype_eqb (c_dt c) (c_dt c') && list_eqb (c_shape c) (c_shape c') && list_eqb (values (mem s) a) (values (mem s) b)) in *.
  assert (In (Show (OBool v)) l) as Ir.
  { destruct (_ || _); injection E as <-; cbn; tauto. }
  assert (K : forall c0 a0, crel (mem s) c0 a0 -> is_contiguous c0 = false -> (size (c_shape c0) =? 0) || negb (contiguous a0) = true).
  { intros c0 a0 D0 Ct. destruct (Z.eqb_spec (size (c_shape c0)) 0) as [|Z0]; [easy|]. rewrite <- (contig_nonempty _ _ _ D0 Z0), Ct. easy. }
  destruct (Nat.eqb_spec p q) as [->|Npq].
  - cbn [bind]. apply good_same; [easy|]. replace true with v; [easy|]. assert (c' = c) by (eapply cont_fun; eauto). subst c'.
    subst v. rewrite list_eqb_refl. rewrite (values_at _ _ _ D), (values_at _ _ _ D'), list_eqb_refl.
    rewrite (proj2 (dtype_eqb_eq _ _)) by easy. easy.
  - destruct (is_contiguous c) eqn:Ct; cbn [negb].
    2:{ cbn [bind good]. specialize (K _ _ D Ct). apply orb_true_iff in K as [K|K]; rewrite K in E; rewrite ?orb_true_r in E; cbn [orb] in E; injection E as <-; now left. }
    destruct (is_contiguous c') eqn:Ct'; cbn [negb].
    2:{ cbn [bind good]. specialize (K _ _ D' Ct'). apply orb_true_iff in K as [K|K]; rewrite K in E; rewrite ?orb_true_r in E; cbn [orb] in E; injection E as <-; now left. }
    destruct (list_eqb (c_shape c) (c_shape c')) eqn:Sh; cbn [negb].
    2:{ cbn [bind]. apply good_same; [easy|]. replace false with v; [easy|]. subst v. now rewrite andb_false_r. }
    destruct (dtype_eqb (c_dt c) (c_dt c')) eqn:Dt.
    2:{ cbn [bind]. apply good_same; [easy|]. now replace false with v. }
    subst v. cbn [andb] in Ir. rewrite data_size_eq by apply (cr_sz _ _ _ D).
    destruct (contig_true _ _ _ D Ct) as [Rm _]. destruct (contig_true _ _ _ D' Ct') as [Rm' _].
    apply list_eqb_eq in Sh. pose proof (crel_nonneg _ _ _ D) as N.
    rewrite (values_at _ _ _ D), (values_at _ _ _ D') in Ir.
    assert (Me : mem_equal (blks (m_heap st)) (c_data c) (c_data c') (zrange (size (c_shape c))) =
       Ok (list_eqb (map (fun idx => value (mem s) (cell_at c idx)) (indices (c_shape c))) (map (fun idx => value (mem s) (cell_at c' idx)) (indices (c_shape c'))))).
    { rewrite <- Sh. rewrite <- (map_position _ N).
      assert (G : forall L, (forall idx, In idx L -> In idx (indices (c_shape c))) ->
         mem_equal (blks (m_heap st)) (c_data c) (c_data c') (map (position (c_shape c)) L) =
         Ok (list_eqb (map (fun idx => value (mem s) (cell_at c idx)) L) (map (fun idx => value (mem s) (cell_at c' idx)) L))).
      { induction L as [|idx L IH]; intros HL; [easy|]. cbn [map mem_equal list_eqb].
        assert (J : In idx (indices (c_shape c))) by (apply HL; now left).
        assert (J' : In idx (indices (c_shape c'))) by now rewrite <- Sh.
        assert (Z0 : size (c_shape c) <> 0) by now apply (in_indices_size _ idx).
        pose proof (src_load0 _ _ _ _ _ _ R C D J) as L1. pose proof (src_load0 _ _ _ _ _ _ R C' D' J') as L2.
        rewrite (Rm Z0) in L1. rewrite Rm' in L2 by now rewrite <- Sh. rewrite <- Sh in L2.
        rewrite dot_row_major in L1, L2 by now apply indices_len_in.
        unfold raw in L1, L2. rewrite (cr_off _ _ _ D O1), padd_0 in L1. rewrite (cr_off _ _ _ D' O2), padd_0 in L2.
        rewrite L1, L2. cbn [bind]. destruct (value (mem s) (cell_at c idx) =? value (mem s) (cell_at c' idx)); [|easy]. cbn [andb]. apply IH. intros; apply HL; now right. }
      apply G. easy. }
    rewrite Me. cbn [bind]. now apply good_same.
Qed.

(** *** Numbers and lists *)
Lemma map_const {A B} (x : B) (l : list A) : map (fun _ => x) l = repeat x (length l).
Proof. induction l; cbn; congruence. Qed.
Lemma good_filled_with st s v x sh d l : rel st s -> free s v = true -> sizable sh = true -> sh <> [] ->
  In (New v d sh (repeat (convert I64 d x) (Z.to_nat (size sh)))) l -> good (bound st v (make_from_scalar (m_heap st) x sh d)) s l.
Proof.
  intros R F S Ne I. pose proof (sizable_nonneg _ S) as N. replace (make_from_scalar (m_heap st) x sh d) with
    (filled (m_heap st) sh d (fun r m => for_each (zrange (item_num sh)) (fun i m => store m (padd (raw r) i) (conv I64 d x)) m)) by now destruct sh.
  eapply good_new; eauto.
  - apply repeat_length.
  - rewrite ?raw_new, item_num_eq by easy. rewrite flat_loop by easy.
    rewrite <- (indices_length sh N) at 2. rewrite <- map_const.
    rewrite <- (fill_indices (fun _ _ => Ok (convert I64 d x))); [|easy|easy].
    apply for_each_ext. intros idx m J. cbn [bind padd]. now rewrite Z.add_0_l, conv_convert.
Qed.
Lemma ok_fill st s v x sh d l : rel st s -> free s v = true -> meaning (Fill v d x sh) s = Some l ->
  good (bound st v (make_from_scalar (m_heap st) x sh d)) s l.
Proof.
  intros R F E. unfold meaning, with_free, unless, raise_if in E. rewrite F in E. destruct (sizable sh) eqn:S; [|easy]. cbn [negb] in E.
  destruct sh as [|n sh]; cbn [nonempty negb] in E; injection E as <-.
  - apply good_raise; auto. now left.
  - apply good_filled_with; auto; [easy|now left].
Qed.

Fixpoint tree_ind' (P : tree -> Prop) (H1 : forall x, P (Leaf x)) (H2 : forall l, Forall P l -> P (Node l)) (t : tree) : P t :=
  match t with
  | Leaf x => H1 x
  | Node l => H2 l ((fix go l : Forall P l := match l with [] => Forall_nil _ | t :: l => Forall_cons _ (tree_ind' P H1 H2 t) (go l) end) l)
  end.
Lemma first_dims_some t : forall sh, first_dims t = Some sh -> sh = first_shape t.
Proof.
  induction t as [x|l IH] using tree_ind'; intros sh; cbn [first_dims first_shape].
  - now injection 1 as <-.
  - destruct l as [|t l]; [easy|]. inversion IH as [|? ? H _]; subst. destruct (first_dims t) as [sh'|]; [|easy]. injection 1 as <-.
    now rewrite (H _ eq_refl).
Qed.
Lemma first_dims_none t : first_dims t = None -> has_shape (first_shape t) t = false.
Proof.
  induction t as [x|l IH] using tree_ind'; cbn [first_dims first_shape has_shape]; [easy|].
  destruct l as [|t l]; [easy|]. inversion IH as [|? ? H _]; subst. destruct (first_dims t); [easy|]. intros _.
  cbn [forallb]. rewrite H by easy. now rewrite andb_false_r.
Qed.
Definition flats (d : dtype) (sh : list Z) : list tree -> bool * list Z :=
  fix go (l : list tree) : bool * list Z :=
    match l with
    | [] => (true, [])
    | t :: l => let (ok, xs) := flatten d sh t in if ok then let (ok, ys) := go l in (ok, xs ++ ys) else (false, xs)
    end.
Lemma flatten_node d sh l : flatten d sh (Node l) =
  match l, sh with
  | [], _ => (false, [])
  | _, [] => (false, [])
  | _, n :: sh => if negb (Z.of_nat (length l) =? n) then (false, []) else flats d sh l
  end.
Proof. destruct l, sh; reflexivity. Qed.
Lemma flatten_ok d t : forall sh, nonneg sh ->
  fst (flatten d sh t) = has_shape sh t /\
  (has_shape sh t = true -> snd (flatten d sh t) = map (convert I64 d) (leaves t)) /\
  Z.of_nat (length (snd (flatten d sh t))) <= size sh /\ (has_shape sh t = true -> Z.of_nat (length (leaves t)) = size sh).
Proof.
  induction t as [x|l IH] using tree_ind'; intros sh N.
  - destruct sh as [|n sh].
    + cbn [flatten has_shape fst snd leaves map]. rewrite conv_convert. easy.
    + cbn [flatten has_shape fst snd length]. split; [easy|]. split; [easy|]. split; [now apply (size_nonneg (n :: sh))|easy].
  - rewrite flatten_node. destruct sh as [|n sh].
    + destruct l; cbn [has_shape fst snd length]; (split; [easy|split; [easy|split; [|easy]]]); change (size []) with 1; lia.
    + inversion N as [|? ? N1 N2]; subst. pose proof (size_nonneg _ N) as P. pose proof (size_nonneg _ N2) as P2.
      cbn [has_shape]. 
      assert (F : fst (flats d sh l) = forallb (has_shape sh) l /\
        (forallb (has_shape sh) l = true -> snd (flats d sh l) = map (convert I64 d) (flat_map leaves l)) /\
        Z.of_nat (length (snd (flats d sh l))) <= Z.of_nat (length l) * size sh /\
        (forallb (has_shape sh) l = true -> Z.of_nat (length (flat_map leaves l)) = Z.of_nat (length l) * size sh)).
      { clear -IH N2 P2. induction IH as [|t l Ht _ IHl]; [easy|]. cbn [flats forallb flat_map length]. specialize (Ht sh N2).
        fold (flats d sh). destruct (flatten d sh t) as [ok xs]. cbn [fst snd] in Ht. destruct Ht as (-> & Hx & Hl & Hs).
        destruct (has_shape sh t) eqn:Ht; cbn [andb].
        - destruct (flats d sh l) as [ok ys]. cbn [fst snd] in *. destruct IHl as (-> & Ix & Il & Is). split; [easy|]. split; [|split].
          + intros E. rewrite map_app, Hx, Ix by easy. easy.
          + rewrite app_length. lia.
          + intros E. rewrite app_length, Nat2Z.inj_add, Hs, Is by easy. lia.
        - cbn [fst snd]. split; [easy|]. split; [easy|]. split; [|easy]. lia. }
      destruct F as (F1 & F2 & F3 & F4).
      destruct l as [|t l]; [cbn [length]; destruct (Z.ltb_spec 0 n), (Z.eqb_spec (Z.of_nat 0) n); cbn [andb fst snd length]; try lia; easy|].
      destruct (Z.eqb_spec (Z.of_nat (length (t :: l))) n) as [En|En]; cbn [negb].
      * assert (B : 0 <? n = true) by (apply Z.ltb_lt; rewrite <- En; cbn; lia). rewrite B. cbn [andb]. rewrite size_cons, <- En.
        split; [exact F1|]. split; [exact F2|]. split; [exact F3|exact F4].
      * rewrite andb_false_r. cbn [andb fst snd length]. split; [easy|]. split; [easy|]. split; [exact P|easy].
Qed.
Lemma push_all_ok bl : forall xs ys r, (length xs <= r)%nat ->
  push_all (bl ++ [Some (map Some ys ++ repeat None r)]) (Some (length bl, Z.of_nat (length ys))) xs =
  Ok (bl ++ [Some (map Some (ys ++ xs) ++ repeat None (r - length xs))]).
Proof.
  induction xs as [|x xs IH]; intros ys r L; cbn [push_all length].
  - rewrite app_nil_r, Nat.sub_0_r. easy.
  - rewrite store_new by (rewrite app_length, map_length, repeat_length; cbn in L; lia). cbn [bind padd].
    rewrite Nat2Z.id. destruct r as [|r]; [cbn in L; lia|]. cbn [repeat].
    replace (lset (map Some ys ++ None :: repeat None r) (length ys) (Some x)) with (map Some (ys ++ [x]) ++ repeat None r).
    + replace (Z.of_nat (length ys) + 1) with (Z.of_nat (length (ys ++ [x]))) by (rewrite app_length; cbn; lia).
      rewrite IH by (cbn in L; lia). rewrite <- app_assoc. easy.
    + rewrite <- (map_length Some ys). rewrite lset_split. rewrite map_app, <- app_assoc. easy.
Qed.
Lemma has_shape_list l : l <> [] -> first_dims (Node l) <> None \/ shape_of (Node l) = None.
Proof.
  intros _. destruct (first_dims (Node l)) eqn:E; [now left|]. right. unfold shape_of. now rewrite first_dims_none.
Qed.
Definition make_list (h : heap) (l : list tree) (sh : list Z) (d : dtype) : res (heap * nat) :=
  match first_dims (Node l) with
  | None => Exn CheckFailed
  | Some lsh =>
    let! sh := match sh with
      | [] => Ok lsh
      | _ => if (match lsh with [n] => n =? item_num sh | _ => false end) || list_eqb lsh sh then Ok sh else Exn CheckFailed
      end in
    filled h sh d (fun r m =>
      let (ok, xs) := flatten d lsh (Node l) in
      let! m := push_all m (raw r) xs in
      if ok then Ok m else Exn CheckFailed)
  end.
Lemma ok_make_list st s v l sh d L : rel st s -> free s v = true -> sizable sh = true -> sizable (first_shape (Node l)) = true ->
  match shape_of (Node l) with
  | None => Some [Raise]
  | Some sh' =>
    let xs := map (convert I64 d) (flat_map leaves l) in
    if negb (nonempty sh) then Some [New v d sh' xs]
    else if list_eqb sh' sh || list_eqb sh' [size sh] then Some [New v d sh xs]
    else Some [Raise]
  end = Some L -> good (bound st v (make_list (m_heap st) l sh d)) s L.
Proof.
  intros R F S Sl E. unfold make_list, shape_of in *. destruct (first_dims (Node l)) as [lsh|] eqn:Fd.
  2:{ rewrite first_dims_none in E by easy. injection E as <-. apply good_raise; auto. now left. }
  apply first_dims_some in Fd. rewrite <- Fd in *. pose proof (sizable_nonneg _ Sl) as Nl.
  destruct (flatten_ok d (Node l) lsh Nl) as (F1 & F2 & F3 & F4).
  set (target := match sh with [] => Ok lsh | _ => _ end).
  assert (T : (target = Exn CheckFailed /\ In Raise L) \/ exists sh', target = Ok sh' /\ sizable sh' = true /\ size sh' = size lsh /\
      (has_shape lsh (Node l) = true -> In (New v d sh' (map (convert I64 d) (flat_map leaves l))) L) /\
      (has_shape lsh (Node l) = false -> In Raise L)).
  { subst target. destruct sh as [|n sh].
    - right. exists lsh. cbn [nonempty negb] in E. split; [easy|]. split; [easy|]. split; [easy|]. destruct (has_shape lsh (Node l)); injection E as <-; cbn; (split; intros; [try easy; tauto|try easy; tauto]).
    - cbn [nonempty negb] in E. rewrite item_num_eq by easy.
      assert (Eb : (match lsh with [k] => k =? size (n :: sh) | _ => false end) || list_eqb lsh (n :: sh) = list_eqb lsh (n :: sh) || list_eqb lsh [size (n :: sh)]).
      { rewrite orb_comm. f_equal. destruct lsh as [|k [|k' lsh]]; cbn [list_eqb]; [easy|now rewrite andb_true_r|now rewrite andb_false_r]. }
      rewrite Eb. destruct (list_eqb lsh (n :: sh) || list_eqb lsh [size (n :: sh)]) eqn:B.
      + right. exists (n :: sh). split; [easy|]. split; [easy|]. split.
        * apply orb_true_iff in B as [B|B]; apply list_eqb_eq in B; rewrite B; [easy|]. rewrite (size_cons (size (n :: sh)) []). change (size []) with 1. lia.
        * destruct (has_shape lsh (Node l)); cbv zeta in E; rewrite ?B in E; injection E as <-; cbn; (split; intros; [try easy; tauto|try easy; tauto]).
      + left. split; [easy|]. destruct (has_shape lsh (Node l)); cbv zeta in E; rewrite ?B in E; injection E as <-; now left. }
  destruct T as [[-> I]|(sh' & -> & S' & Z' & I1 & I2)]; cbn [bind]; [now apply good_raise|].
  destruct (flatten d lsh (Node l)) as [ok xs]. cbn [fst snd] in *.
  pose proof (push_all_ok (blks (m_heap st)) xs [] (Z.to_nat (size sh'))) as Pu. cbn [map app length] in Pu. change (Z.of_nat 0) with 0 in Pu.
  destruct ok.
  - symmetry in F1. rewrite F2 in * by easy. cbn [leaves] in *. specialize (F4 F1). eapply good_new; [easy|easy|easy| | |now apply I1].
    + rewrite map_length. lia.
    + rewrite raw_new. rewrite Pu by (rewrite map_length; lia). cbn [bind]. rewrite map_length.
      replace (Z.to_nat (size sh') - length (flat_map leaves l))%nat with 0%nat by lia. cbn [repeat]. now rewrite app_nil_r.
  - unfold filled, empty_array. cbn [blks conts]. rewrite data_size_eq, raw_new by easy. rewrite Pu by lia. cbn [bind]. apply good_raise; auto.
Qed.
Lemma ok_make st s v l sh d L : rel st s -> free s v = true -> meaning (Make v d l sh) s = Some L ->
  good (bound st v (make (m_heap st) l sh d)) s L.
Proof.
  intros R F E. unfold meaning, with_free, unless in E. rewrite F in E.
  destruct (sizable sh) eqn:S; [|easy]. cbn [negb orb] in E. destruct (sizable (first_shape (Node l))) eqn:Sl; [|easy]. cbn [negb] in E.
  destruct l as [|t l].
  - destruct sh; [|easy]. injection E as <-. apply good_raise; auto. now left.
  - destruct t as [x|ts].
    + destruct l as [|t' l].
      * destruct sh as [|n sh].
        -- apply (ok_make_list st s v [Leaf x] [] d L); auto.
        -- injection E as <-. apply good_filled_with; auto; [easy|now left].
      * apply (ok_make_list st s v (Leaf x :: t' :: l) sh d L); auto.
    + apply (ok_make_list st s v (Node ts :: l) sh d L); auto.
Qed.

(** *** Tensors *)
Lemma dot_sum idx : forall st, sum (map (fun p => fst p * snd p) (combine idx st)) = dot idx st.
Proof. induction idx as [|i idx IH]; intros [|x st]; try easy. cbn [combine map dot]. unfold sum in *. cbn [fold_right fst snd]. now rewrite IH. Qed.
Lemma ok_import st s v d sh ost off data l : rel st s -> free s v = true -> meaning (Import v d sh ost off data) s = Some l ->
  good (bound st v (Ok (from_dlpack (m_heap st) d sh ost off data))) s l.
Proof.
  intros R F E. unfold meaning, with_free, unless in E. rewrite F in E. cbv zeta in E.
  set (str := match ost with Some st => st | None => row_major sh end) in *.
  destruct (sizable sh) eqn:S; [|easy]. cbn [negb orb] in E. destruct (Nat.eqb_spec (length str) (length sh)) as [Ls|]; [|easy]. cbn [negb orb] in E.
  set (cs := map _ (indices sh)) in E. destruct (forallb _ cs) eqn:Fb; [|easy]. cbn [negb] in E. injection E as <-.
  pose proof (sizable_nonneg _ S) as N.
  assert (Ec : cs = map (fun idx => (length (mem s), off + dot idx str)) (indices sh)).
  { subst cs. apply map_ext. intros idx. now rewrite dot_sum. }
  assert (Ib : Forall (inb (mem s ++ [data])) cs).
  { apply Forall_forall. intros x I. rewrite forallb_forall in Fb. specialize (Fb x I). apply andb_true_iff in Fb as [B1 B2].
    apply Z.leb_le in B1. apply Z.ltb_lt in B2. rewrite Ec in I. apply in_map_iff in I as [idx [<- _]]. apply inb_new. easy. }
  set (dl := match ost with Some _ => true | None => false end) in *.
  assert (Ef : from_dlpack (m_heap st) d sh ost off data = add_cont (Heap (conts (m_heap st)) (blks (m_heap st) ++ [Some (map Some data)]))
           (Cont 1 (Some (length (blks (m_heap st)), 0)) off sh str dl d Ext)).
  { unfold from_dlpack. subst str dl. destruct ost; [easy|]. now rewrite gen_strides_eq. }
  rewrite Ef. eapply good_block; [exact R|exact F| |easy|easy| | |now left]; [easy| |reflexivity].
  rewrite <- (memrel_length _ _ (r_mem _ _ R)). constructor; pj; try easy.
  - intros Z0. rewrite Ec, indices_nil; easy.
  - intros _. exists (length (mem s)), 0. do 2 (split; [easy|]). rewrite Z.add_0_l, offs_indices, map_map by easy. exact Ec.
  - destruct (Z.eqb_spec off 0); easy.
  - subst str dl. destruct ost; [easy|]. intros _. destruct (Z.eqb_spec (size sh) 0) as [Z0|]; [|easy]. destruct sh as [|n sh]; [easy|].
    cbn [hd row_major]. rewrite <- size_cons. easy.
Qed.
