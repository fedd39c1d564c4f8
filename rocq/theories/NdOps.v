(** The operations one by one: other shapes, new arrays, writing. *)
From Verif Require Import Base ListAux NdSpec NdModel NdAux NdMem NdInv NdProofs.
From Coq Require Import Permutation Sorting.Sorted.
Local Open Scope Z_scope.

(** *** Squeeze and unsqueeze *)
Fixpoint left_dims (i : Z) (sh axes : list Z) : list Z :=
  match sh with
  | [] => []
  | n :: sh => if existsb (Z.eqb i) axes then left_dims (i + 1) sh axes else n :: left_dims (i + 1) sh axes
  end.
Lemma existsb_in i l : existsb (Z.eqb i) l = true <-> In i l.
Proof.
  rewrite existsb_exists. split; [intros [x [I E]]; apply Z.eqb_eq in E; now subst|]. intros I. exists i. split; [easy|apply Z.eqb_refl].
Qed.
Lemma existsb_out i l : existsb (Z.eqb i) l = false <-> ~ In i l.
Proof. rewrite <- not_true_iff_false, existsb_in. easy. Qed.
Lemma left_dims_map axes sh : forall i, left_dims i sh axes =
  map (fun k => nth (Z.to_nat (k - i)) sh 0) (filter (fun k => negb (existsb (Z.eqb k) axes)) (map (Z.add i) (zrange (Z.of_nat (length sh))))).
Proof.
  induction sh as [|n sh IH]; intros i; [easy|]. cbn [left_dims length]. rewrite Nat2Z.inj_succ.
  replace (Z.succ (Z.of_nat (length sh))) with (1 + Z.of_nat (length sh)) by lia. rewrite zrange_app by lia.
  change (zrange 1) with [0]. cbn [app map filter]. rewrite Z.add_0_r. rewrite map_map.
  rewrite (map_ext (fun x => i + (1 + x)) (fun x => i + 1 + x)) by (intros; lia).
  assert (E : map (fun k => nth (Z.to_nat (k - i)) (n :: sh) 0) (filter (fun k => negb (existsb (Z.eqb k) axes)) (map (fun x => i + 1 + x) (zrange (Z.of_nat (length sh)))))
            = left_dims (i + 1) sh axes).
  { rewrite IH. apply map_ext_in. intros k I. apply filter_In in I as [I _]. apply in_map_iff in I as [j [<- I]]. apply in_zrange in I.
    replace (Z.to_nat (i + 1 + j - i)) with (S (Z.to_nat (i + 1 + j - (i + 1)))) by lia. easy. }
  destruct (existsb (Z.eqb i) axes) eqn:Ex; cbn [negb map].
  - now rewrite E.
  - rewrite E, Z.sub_diag. easy.
Qed.
Lemma left_dims_all sh : forall i axes, Forall (fun x => x < i) axes -> left_dims i sh axes = sh.
Proof.
  induction sh as [|n sh IH]; intros i axes F; [easy|]. cbn [left_dims]. rewrite (proj2 (existsb_out i axes)).
  - rewrite IH; [easy|]. eapply Forall_impl; [|exact F]. cbn. lia.
  - intros I. rewrite Forall_forall in F. specialize (F _ I). lia.
Qed.
Definition unit_axes (i : Z) (sh axes : list Z) : Prop := Forall (fun x => i <= x < i + Z.of_nat (length sh) /\ nth (Z.to_nat (x - i)) sh 0 = 1) axes.
Lemma left_dims_size F sh : F 1 = 1 -> forall axes i, (forall x, In x axes -> i <= x < i + Z.of_nat (length sh) -> nth (Z.to_nat (x - i)) sh 0 = 1) ->
  size (map F (left_dims i sh axes)) = size (map F sh).
Proof.
  intros F1. induction sh as [|n sh IH]; intros axes i U; [easy|]. cbn [left_dims].
  assert (U' : forall x, In x axes -> i + 1 <= x < i + 1 + Z.of_nat (length sh) -> nth (Z.to_nat (x - (i + 1))) sh 0 = 1).
  { intros x I B. transitivity (nth (Z.to_nat (x - i)) (n :: sh) 0); [|apply U; [easy|cbn [length]; lia]]. replace (Z.to_nat (x - i)) with (S (Z.to_nat (x - (i + 1)))) by lia. easy. }
  destruct (existsb (Z.eqb i) axes) eqn:Ex.
  - apply existsb_in in Ex. specialize (U i Ex ltac:(cbn [length]; lia)). rewrite Z.sub_diag in U. cbn in U. subst n.
    cbn [map]. rewrite size_cons, F1, Z.mul_1_l. now apply IH.
  - cbn [map]. rewrite !size_cons, IH; easy.
Qed.
Lemma left_dims_in sh : forall i axes x, In x (left_dims i sh axes) -> In x sh.
Proof. induction sh as [|n sh IH]; intros i axes x; cbn [left_dims]; [easy|]. destruct (existsb _ _); intros I; [right; eauto|]. destruct I as [->|I]; [now left|right; eauto]. Qed.
Lemma squeeze_late sh : forall i a axes, a < i -> exists e, squeeze_axes i sh (a :: axes) = Exn e.
Proof.
  induction sh as [|n sh IH]; intros i a axes L; cbn [squeeze_axes]; [eauto|]. destruct (Z.eqb_spec i a); [lia|].
  destruct (IH (i + 1) a axes ltac:(lia)) as [e ->]. cbn. eauto.
Qed.
Lemma squeeze_axes_ok sh : forall i axes, StronglySorted Z.le axes -> Forall (fun x => i <= x) axes ->
  (NoDup axes /\ unit_axes i sh axes /\ squeeze_axes i sh axes = Ok (left_dims i sh axes)) \/
  (~ (NoDup axes /\ unit_axes i sh axes) /\ exists e, squeeze_axes i sh axes = Exn e).
Proof.
  induction sh as [|n sh IH]; intros i axes S G.
  - destruct axes as [|a axes].
    + left. repeat split; constructor.
    + right. split; [|cbn; eauto]. intros [_ U]. inversion U; subst. cbn [length] in *. lia.
  - destruct axes as [|a axes].
    + left. split; [constructor|]. split; [constructor|]. cbn [squeeze_axes]. now rewrite left_dims_all by constructor.
    + inversion S as [|? ? S1 S2]; subst. inversion G as [|? ? G1 G2]; subst. cbn [squeeze_axes]. destruct (Z.eqb_spec i a) as [<-|Ne].
      * destruct (Z.eqb_spec n 1) as [->|N1].
        2:{ right. split; [|eauto]. intros [_ U]. inversion U as [|? ? [_ U1] _]; subst. rewrite Z.sub_diag in U1. cbn in U1. easy. }
        destruct axes as [|b axes].
        { left. split; [constructor; [easy|constructor]|]. split.
          - constructor; [|constructor]. rewrite Z.sub_diag. cbn [length nth Z.to_nat]. split; [lia|easy].
          - cbn [left_dims existsb]. rewrite Z.eqb_refl. cbn [orb]. rewrite left_dims_all by (constructor; [lia|constructor]). now destruct sh. }
        assert (Hb : i <= b) by (inversion G2; easy). destruct (Z.eq_dec b i) as [->|Nb].
        { right. split; [|apply squeeze_late; lia]. intros [N _]. inversion N; subst. cbn in *. tauto. }
        assert (G3 : Forall (fun x => i + 1 <= x) (b :: axes)).
        { inversion S1 as [|? ? _ S4]; subst. constructor; [lia|]. eapply Forall_impl; [|exact S4]. cbn. lia. }
        destruct (IH (i + 1) (b :: axes) S1 G3) as [(N & U & E)|(N & e & E)].
        -- left. split; [|split].
           ++ constructor; [|easy]. intros I. rewrite Forall_forall in G3. specialize (G3 _ I). lia.
           ++ constructor; [rewrite Z.sub_diag; cbn [length nth Z.to_nat]; split; [lia|easy]|].
              eapply Forall_impl; [|exact U]. intros x [Ux1 Ux2]. cbn [length]. split; [lia|].
              replace (Z.to_nat (x - i)) with (Datatypes.S (Z.to_nat (x - (i + 1)))) by lia. exact Ux2.
           ++ rewrite E. f_equal. cbn [left_dims]. cbn [existsb]. rewrite Z.eqb_refl. cbn [orb].
              assert (K : forall sh j ax, i < j -> left_dims j sh (i :: ax) = left_dims j sh ax).
              { clear. induction sh as [|m sh IH]; intros j ax L; [easy|]. cbn [left_dims existsb]. destruct (Z.eqb_spec j i); [lia|]. cbn [orb].
                now rewrite IH by lia. }
              symmetry. apply K. lia.
        -- right. split; [|eauto]. intros [Na U]. apply N. inversion Na; subst. split; [easy|].
           inversion U as [|? ? _ U2]; subst. unfold unit_axes; rewrite Forall_forall in *. intros x I. specialize (U2 _ I). specialize (G3 _ I). destruct U2 as [Ux1 Ux2].
           cbn [length] in Ux1. split; [lia|]. replace (Z.to_nat (x - i)) with (Datatypes.S (Z.to_nat (x - (i + 1)))) in Ux2 by lia. exact Ux2.
      * assert (G3 : Forall (fun x => i + 1 <= x) (a :: axes)).
        { constructor; [lia|]. eapply Forall_impl; [|exact S2]. cbn. lia. }
        destruct (IH (i + 1) (a :: axes) S G3) as [(N & U & E)|(N & e & E)].
        -- left. split; [easy|]. split.
           ++ eapply Forall_impl; [|exact U]. intros x [Ux1 Ux2]. cbn [length]. split; [lia|].
              replace (Z.to_nat (x - i)) with (Datatypes.S (Z.to_nat (x - (i + 1)))) by lia. exact Ux2.
           ++ rewrite E. cbn [bind left_dims]. rewrite (proj2 (existsb_out i (a :: axes))); [easy|].
              intros I. rewrite Forall_forall in G3. specialize (G3 _ I). lia.
        -- right. split; [|rewrite E; cbn; eauto]. intros [Na U]. apply N. split; [easy|].
           unfold unit_axes in *. rewrite Forall_forall in *. intros x I. specialize (U _ I). specialize (G3 _ I). destruct U as [Ux1 Ux2].
           cbn [length] in Ux1. split; [lia|]. replace (Z.to_nat (x - i)) with (Datatypes.S (Z.to_nat (x - (i + 1)))) in Ux2 by lia. exact Ux2.
Qed.
Lemma insert_sorted_perm x l : Permutation (insert_sorted x l) (x :: l).
Proof. induction l as [|y l IH]; cbn; [easy|]. destruct (x <=? y); [easy|]. rewrite IH. apply perm_swap. Qed.
Lemma sort_axes_perm l : Permutation (sort_axes l) l.
Proof. induction l as [|x l IH]; cbn; [easy|]. fold (sort_axes l). rewrite insert_sorted_perm. now constructor. Qed.
Lemma insert_sorted_sorted x l : StronglySorted Z.le l -> StronglySorted Z.le (insert_sorted x l).
Proof.
  induction 1 as [|y l S IH F]; cbn; [repeat constructor|]. destruct (Z.leb_spec x y) as [L|L].
  - constructor; [now constructor|]. constructor; [easy|]. eapply Forall_impl; [|exact F]. cbn. lia.
  - constructor; [easy|]. eapply Permutation_Forall; [symmetry; apply insert_sorted_perm|]. constructor; [lia|easy].
Qed.
Lemma sort_axes_sorted l : StronglySorted Z.le (sort_axes l).
Proof. induction l as [|x l IH]; cbn; [constructor|]. now apply insert_sorted_sorted. Qed.
Lemma left_dims_perm sh axes axes' : Permutation axes axes' -> forall i, left_dims i sh axes = left_dims i sh axes'.
Proof.
  intros P. induction sh as [|n sh IH]; intros i; [easy|]. cbn [left_dims]. rewrite IH.
  replace (existsb (Z.eqb i) axes') with (existsb (Z.eqb i) axes); [easy|].
  destruct (existsb (Z.eqb i) axes') eqn:E.
  - apply existsb_in. apply existsb_in in E. eapply Permutation_in; [symmetry; exact P|exact E].
  - apply existsb_out. apply existsb_out in E. intros I. apply E. eapply Permutation_in; eauto.
Qed.
Lemma sizable_same sh sh' : nonneg sh' -> size (map (Z.max 1) sh') = size (map (Z.max 1) sh) -> sizable sh = true -> sizable sh' = true.
Proof. intros N E S. apply sizable_alt in S as [_ S]. apply sizable_alt. split; [easy|]. now rewrite E. Qed.
Lemma ok_squeeze_axes st s v w a p axes l : rel st s -> free s v = true -> holds s w = Some a -> handle st w = Ok p ->
  axes <> [] -> meaning (Squeeze v w axes) s = Some l -> good (bound st v (squeeze (m_heap st) p axes)) s l.
Proof.
  intros R F H Hp NE E. destruct (rel_holds _ _ _ _ R H) as (p' & c & _ & Hp' & C & D). assert (p' = p) by congruence. subst p'.
  unfold meaning, with_free, with_arr, unless in E. rewrite F, H in E. rewrite (cr_sh _ _ _ D) in E.
  unfold squeeze. unfold hget. rewrite C. cbn [bind].
  assert (E1 : (if existsb (fun x => x <? 0) axes then None else
            (if distinct axes && forallb (fun x => (x <? Z.of_nat (length (c_shape c))) && (nth (Z.to_nat x) (c_shape c) 0 =? 1)) axes
             then view a v (left_dims 0 (c_shape c) axes) else Some [Raise])) = Some l).
  { rewrite <- E. destruct axes as [|x axes]; [easy|]. rewrite left_dims_map.
    rewrite (map_ext (Z.add 0) (fun x => x)) by easy. rewrite map_id.
    rewrite (map_ext (fun k => nth (Z.to_nat (k - 0)) (c_shape c) 0) (fun k => nth (Z.to_nat k) (c_shape c) 0)) by (intros; now rewrite Z.sub_0_r).
    reflexivity. }
  clear E. destruct (existsb (fun x => x <? 0) axes) eqn:Ng; [easy|].
  assert (Pos : Forall (fun x => 0 <= x) axes).
  { apply Forall_forall. intros x I. destruct (Z.ltb_spec x 0) as [L|]; [|lia]. exfalso. rewrite <- not_true_iff_false in Ng. apply Ng.
    apply existsb_exists. exists x. split; [easy|]. now apply Z.ltb_lt. }
  assert (Eq : (match axes with [] => reshape (m_heap st) p (filter (fun e => negb (e =? 1)) (map to_int (c_shape c)))
     | _ :: _ => let! sh := squeeze_axes 0 (c_shape c) (sort_axes axes) in reshape (m_heap st) p sh end)
     = let! sh := squeeze_axes 0 (c_shape c) (sort_axes axes) in reshape (m_heap st) p sh) by now destruct axes.
  rewrite Eq. clear Eq. pose proof (sort_axes_perm axes) as P.
  assert (B : distinct axes && forallb (fun x => (x <? Z.of_nat (length (c_shape c))) && (nth (Z.to_nat x) (c_shape c) 0 =? 1)) axes = true
     <-> NoDup (sort_axes axes) /\ unit_axes 0 (c_shape c) (sort_axes axes)).
  { rewrite andb_true_iff, distinct_nodup. unfold unit_axes. rewrite forallb_forall. 
    assert (X : (forall x, In x axes -> (x <? Z.of_nat (length (c_shape c))) && (nth (Z.to_nat x) (c_shape c) 0 =? 1) = true) <->
       Forall (fun x => 0 <= x < 0 + Z.of_nat (length (c_shape c)) /\ nth (Z.to_nat (x - 0)) (c_shape c) 0 = 1) axes).
    { rewrite Forall_forall in *. split; intros K x I; specialize (K x I); specialize (Pos x I); rewrite ?Z.sub_0_r in *.
      - rewrite andb_true_iff, Z.ltb_lt, Z.eqb_eq in K. split; [lia|easy].
      - rewrite andb_true_iff, Z.ltb_lt, Z.eqb_eq. split; [lia|easy]. }
    rewrite X. split; intros [K1 K2]; split.
    - eapply Permutation_NoDup; [symmetry; exact P|easy].
    - eapply Permutation_Forall; [symmetry; exact P|easy].
    - eapply Permutation_NoDup; [exact P|easy].
    - eapply Permutation_Forall; [exact P|easy]. }
  destruct (squeeze_axes_ok (c_shape c) 0 (sort_axes axes) (sort_axes_sorted axes)) as [(N & U & Es)|(N & e & Es)].
  - eapply Permutation_Forall; [symmetry; exact P|easy].
  - rewrite (proj2 B (conj N U)) in E1. rewrite Es. cbn [bind]. rewrite (left_dims_perm _ _ _ P).
    assert (U' : forall x, In x axes -> 0 <= x < 0 + Z.of_nat (length (c_shape c)) -> nth (Z.to_nat (x - 0)) (c_shape c) 0 = 1).
    { intros x I _. unfold unit_axes in U. rewrite Forall_forall in U. apply U. eapply Permutation_in; [symmetry; exact P|easy]. }
    eapply ok_reshape_plain; eauto.
    + eapply sizable_same; [|apply left_dims_size|apply (cr_sz _ _ _ D)].
      * apply Forall_forall. intros x I. apply left_dims_in in I. pose proof (crel_nonneg _ _ _ D) as Nn. unfold nonneg in Nn. rewrite Forall_forall in Nn. auto.
      * easy.
      * exact U'.
    + pose proof (left_dims_size (fun x => x) (c_shape c) eq_refl axes 0 U') as K. rewrite !map_id' in K. exact K.
  - rewrite Es. cbn [bind]. destruct (distinct axes && _) eqn:Bb; [exfalso; apply N, B; easy|]. injection E1 as <-. apply good_raise; auto. now left.
Qed.
Lemma to_int_id n : 0 <= n < 2 ^ 31 -> to_int n = n.
Proof. intros H. unfold to_int. change (2 ^ 31) with 2147483648 in *. change (2 ^ 32) with 4294967296. rewrite Z.mod_small; lia. Qed.
Lemma size_filter1 F sh : F 1 = 1 -> size (map F (filter (fun d => negb (d =? 1)) sh)) = size (map F sh).
Proof.
  intros F1. induction sh as [|n sh IH]; [easy|]. cbn [filter map]. rewrite size_cons. destruct (Z.eqb_spec n 1) as [->|]; cbn [negb].
  - rewrite IH, F1. lia.
  - cbn [map]. now rewrite size_cons, IH.
Qed.
Lemma ok_squeeze st s v w a p axes l : rel st s -> free s v = true -> holds s w = Some a -> handle st w = Ok p ->
  meaning (Squeeze v w axes) s = Some l -> good (bound st v (squeeze (m_heap st) p axes)) s l.
Proof.
  intros R F H Hp E. destruct axes as [|x axes]; [|eapply ok_squeeze_axes; eauto; easy].
  destruct (rel_holds _ _ _ _ R H) as (p' & c & _ & Hp' & C & D). assert (p' = p) by congruence. subst p'.
  unfold meaning, with_free, with_arr, unless in E. rewrite F, H in E. rewrite (cr_sh _ _ _ D) in E.
  unfold squeeze. unfold hget. rewrite C. cbn [bind]. pose proof (crel_nonneg _ _ _ D) as N.
  destruct (existsb (fun d => 2 ^ 31 <=? d) (c_shape c)) eqn:Bg; [easy|].
  assert (T : map to_int (c_shape c) = c_shape c).
  { clear -N Bg. induction N as [|n sh H _ IH]; [easy|]. cbn [existsb map] in *. apply orb_false_iff in Bg as [B1 B2]. rewrite IH by easy.
    rewrite to_int_id; [easy|]. apply Z.leb_gt in B1. easy. }
  rewrite T. eapply ok_reshape_plain; eauto.
  - eapply sizable_same; [|apply size_filter1|apply (cr_sz _ _ _ D)].
    + apply Forall_forall. intros x I. apply filter_In in I as [I _]. unfold nonneg in N. rewrite Forall_forall in N. auto.
    + easy.
  - pose proof (size_filter1 (fun x => x) (c_shape c) eq_refl) as K. rewrite !map_id' in K. exact K.
Qed.
Lemma insert_cut k : forall x l, (k <= length l)%nat -> insert k x l = firstn k l ++ x :: skipn k l.
Proof. induction k as [|k IH]; intros x l L; [now destruct l|]. destruct l as [|y l]; [easy|]. cbn. now rewrite IH by (cbn in L; lia). Qed.
Lemma ok_unsqueeze st s v w a p d l : rel st s -> free s v = true -> holds s w = Some a -> handle st w = Ok p ->
  meaning (Unsqueeze v w d) s = Some l -> good (bound st v (unsqueeze (m_heap st) p d)) s l.
Proof.
  intros R F H Hp E. destruct (rel_holds _ _ _ _ R H) as (p' & c & _ & Hp' & C & D). assert (p' = p) by congruence. subst p'.
  unfold meaning, with_free, with_arr in E. rewrite F, H in E. rewrite (cr_sh _ _ _ D) in E.
  unfold unsqueeze. unfold hget. rewrite C. cbn [bind]. set (nd := Z.of_nat (length (c_shape c))) in *.
  unfold norm in E.
  assert (K : (0 <=? (if d <? 0 then d + (nd + 1) else d)) && ((if d <? 0 then d + (nd + 1) else d) <? nd + 1) = (0 - nd - 1 <=? d) && (d <? nd + 1)).
  { destruct (Z.ltb_spec d 0).
    - destruct (Z.leb_spec 0 (d + (nd + 1))), (Z.ltb_spec (d + (nd + 1)) (nd + 1)), (Z.leb_spec (0 - nd - 1) d), (Z.ltb_spec d (nd + 1)); cbn; lia || easy.
    - destruct (Z.leb_spec 0 d), (Z.leb_spec (0 - nd - 1) d); cbn; lia || easy. }
  rewrite K in E. destruct ((0 - nd - 1 <=? d) && (d <? nd + 1)) eqn:B; cbn [negb].
  2:{ injection E as <-. apply good_raise; auto. now left. }
  replace (d + nd + 1) with (d + (nd + 1)) by lia. set (k := if d <? 0 then d + (nd + 1) else d) in *.
  apply andb_true_iff in B as [B1 B2]. apply Z.leb_le in B1. apply Z.ltb_lt in B2.
  assert (Hk : 0 <= k <= nd) by (subst k; destruct (Z.ltb_spec d 0); lia).
  rewrite insert_cut in E by lia. set (sh' := firstn (Z.to_nat k) (c_shape c) ++ 1 :: skipn (Z.to_nat k) (c_shape c)) in *.
  assert (P : Permutation sh' (1 :: c_shape c)).
  { subst sh'. rewrite <- Permutation_middle. now rewrite firstn_skipn. }
  assert (S : sizable (1 :: c_shape c) = true).
  { pose proof (cr_sz _ _ _ D) as S. rewrite sizable_alt in *. destruct S as [S1 S2]. split; [constructor; [lia|easy]|].
    cbn [map]. rewrite size_cons. change (Z.max 1 1) with 1. lia. }
  eapply ok_reshape_plain; eauto.
  - eapply sizable_perm; [symmetry; exact P|easy].
  - rewrite (size_perm _ _ P), size_cons. lia.
Qed.
