(** The operations one by one: new arrays. *)
From Verif Require Import Base ListAux NdSpec NdModel NdAux NdMem NdInv NdProofs.
From Coq Require Import Permutation.
Local Open Scope Z_scope.

Lemma bind_assoc {A B C} (r : res A) (f : A -> res B) (g : B -> res C) :
  (let! y := (let! x := r in f x) in g y) = (let! x := r in let! y := f x in g y).
Proof. now destruct r. Qed.
Lemma combine_map2 {A B C} (f : A -> B) (g : A -> C) l : combine (map f l) (map g l) = map (fun x => (f x, g x)) l.
Proof. induction l; cbn; [easy|]. now rewrite IHl. Qed.
Lemma repeat_length' {A} (x : A) n : Z.of_nat (length (repeat x (Z.to_nat n))) = Z.max 0 n.
Proof. rewrite repeat_length. lia. Qed.
Lemma raw_new n b sh st dl d o : raw (Cont n (Some (b, 0)) 0 sh st dl d o) = Some (b, 0).
Proof. easy. Qed.
(** A loop over the indices fills a new block. *)
Lemma fill_indices (f : list Z -> list (option (list (option Z))) -> res Z) (g : list Z -> Z) bl sh : nonneg sh ->
  (forall idx w, In idx (indices sh) -> f idx (bl ++ [Some w]) = Ok (g idx)) ->
  for_each (indices sh) (fun idx m => let! v := f idx m in store m (Some (length bl, dot idx (row_major sh))) v)
    (bl ++ [Some (repeat None (Z.to_nat (size sh)))])
  = Ok (bl ++ [Some (map Some (map g (indices sh)))]).
Proof.
  intros N H. pose proof (size_nonneg _ N) as P. rewrite fill_each with (g := g).
  - do 4 f_equal. apply wputs_full.
    + rewrite map_length. now apply indices_length.
    + rewrite <- map_position, combine_map2 by easy.
      rewrite map_ext_in with (g := fun x => (position sh x, g x)); [easy|]. intros idx I. rewrite dot_row_major; [easy|]. now apply indices_len_in.
  - intros idx w I _. now apply H.
  - intros idx I. rewrite repeat_length'. rewrite dot_row_major by now apply indices_len_in. pose proof (position_range _ _ N I). lia.
Qed.
Lemma load_old bl w b o : (b < length bl)%nat -> load (bl ++ [Some w]) (Some (b, o)) = load bl (Some (b, o)).
Proof. intros L. unfold load. now rewrite nth_error_app1. Qed.
Lemma alive_lt bl b : alive bl b -> (b < length bl)%nat.
Proof. intros [l E]. apply nth_error_Some. congruence. Qed.
Lemma src_alive st s p c b : rel st s -> cont_at (m_heap st) p c -> blk_of c = Some b -> alive (blks (m_heap st)) b.
Proof. intros R C B. eapply block_alive; eauto. apply (r_inv _ _ R). Qed.
Lemma src_load st s p c a idx w : rel st s -> cont_at (m_heap st) p c -> crel (mem s) c a -> In idx (indices (c_shape c)) ->
  load (blks (m_heap st) ++ [Some w]) (padd (raw c) (dot idx (c_strides c))) = Ok (value (mem s) (cell_at c idx)).
Proof.
  intros R C D I. destruct (cell_ptr _ _ _ _ D I) as (-> & Ib & B). pose proof (src_alive _ _ _ _ _ R C B) as A.
  destruct (cell_at c idx) as [b o]. cbn [fst] in *. rewrite load_old by now apply alive_lt. apply load_rel; auto. apply (r_mem _ _ R).
Qed.
Lemma src_blk st s p c b o : rel st s -> cont_at (m_heap st) p c -> raw c = Some (b, o) -> (b < length (blks (m_heap st)))%nat.
Proof. intros R C E. eapply alive_lt, src_alive; eauto. apply raw_blk with (o := o) (k := 0). now rewrite padd_0. Qed.
Lemma convert_same d x : convert d d x = x.
Proof. unfold convert. now destruct d. Qed.
Lemma map_values {B} m c a (f : Z -> B) : crel m c a -> map f (values m a) = map (fun idx => f (value m (cell_at c idx))) (indices (c_shape c)).
Proof. intros D. now rewrite (values_at _ _ _ D), map_map. Qed.

(** Copying all elements of an array that lies in order, or with its strides. *)
Lemma fill_flat st s p c a d : rel st s -> cont_at (m_heap st) p c -> crel (mem s) c a ->
  (size (c_shape c) <> 0 -> c_strides c = row_major (c_shape c)) ->
  copy_elements (c_dt c) d (Some (length (blks (m_heap st)), 0)) (raw c) (size (c_shape c))
    (blks (m_heap st) ++ [Some (repeat None (Z.to_nat (size (c_shape c))))])
  = Ok (blks (m_heap st) ++ [Some (map Some (map (convert (a_dt a) d) (values (mem s) a)))]).
Proof.
  intros R C D K. pose proof (crel_nonneg _ _ _ D) as N. unfold copy_elements. rewrite flat_loop by easy.
  rewrite (map_values _ _ _ _ D), (cr_dt _ _ _ D).
  rewrite <- fill_indices with (f := fun idx m => let! x := load m (padd (raw c) (dot idx (c_strides c))) in Ok (convert (c_dt c) d x)).
  - apply for_each_ext. intros idx m I. rewrite bind_assoc. rewrite K by now apply (in_indices_size _ idx). cbn [padd]. rewrite Z.add_0_l.
    destruct (load m _); try easy. cbn [bind]. now rewrite conv_convert.
  - easy.
  - intros idx w I. now rewrite (src_load _ _ _ _ _ _ _ R C D I).
Qed.
Lemma fill_strided st s p c a d : rel st s -> cont_at (m_heap st) p c -> crel (mem s) c a -> c_shape c <> [] ->
  assign (c_dt c) d (Some (length (blks (m_heap st)), 0)) (raw c) (row_major (c_shape c)) (c_strides c) (c_shape c)
    (blks (m_heap st) ++ [Some (repeat None (Z.to_nat (size (c_shape c))))])
  = Ok (blks (m_heap st) ++ [Some (map Some (map (convert (a_dt a) d) (values (mem s) a)))]).
Proof.
  intros R C D K. pose proof (crel_nonneg _ _ _ D) as N. rewrite assign_loop by (auto using row_major_length; apply (cr_len _ _ _ D)).
  rewrite (map_values _ _ _ _ D), (cr_dt _ _ _ D).
  rewrite <- fill_indices with (f := fun idx m => let! x := load m (padd (raw c) (dot idx (c_strides c))) in Ok (convert (c_dt c) d x)).
  - apply for_each_ext. intros idx m I. rewrite bind_assoc. cbn [padd]. rewrite Z.add_0_l.
    destruct (load m _); try easy. cbn [bind]. now rewrite conv_convert.
  - easy.
  - intros idx w I. now rewrite (src_load _ _ _ _ _ _ _ R C D I).
Qed.
Lemma overlap_new st s p c n : rel st s -> cont_at (m_heap st) p c -> overlap (Some (length (blks (m_heap st)), 0)) (raw c) n = false.
Proof.
  intros R C. unfold overlap. destruct (raw c) as [[b o]|] eqn:E; [|easy]. pose proof (src_blk _ _ _ _ _ _ R C E).
  destruct (Nat.eqb_spec (length (blks (m_heap st))) b); [lia|easy].
Qed.
Lemma fill_copy st s p c a d : rel st s -> cont_at (m_heap st) p c -> crel (mem s) c a -> c_shape c <> [] ->
  (if is_contiguous c
   then let! n := first_product (c_shape c) (c_strides c) in
        assign_flat (c_dt c) d (Some (length (blks (m_heap st)), 0)) (raw c) n (blks (m_heap st) ++ [Some (repeat None (Z.to_nat (size (c_shape c))))])
   else assign (c_dt c) d (Some (length (blks (m_heap st)), 0)) (raw c) (row_major (c_shape c)) (c_strides c) (c_shape c)
    (blks (m_heap st) ++ [Some (repeat None (Z.to_nat (size (c_shape c))))]))
  = Ok (blks (m_heap st) ++ [Some (map Some (map (convert (a_dt a) d) (values (mem s) a)))]).
Proof.
  intros R C D K. destruct (is_contiguous c) eqn:Ct; [|eapply fill_strided; eauto].
  destruct (contig_true _ _ _ D Ct) as [Rm Fp]. rewrite (Fp K). cbn [bind]. unfold assign_flat.
  rewrite (overlap_new _ _ _ _ _ R C), andb_false_r. eapply fill_flat; eauto.
Qed.

Lemma ok_as_type st s v w a p d l : rel st s -> free s v = true -> holds s w = Some a -> handle st w = Ok p ->
  meaning (AsType v w d) s = Some l -> good (bound st v (as_type (m_heap st) p d)) s l.
Proof.
  intros R F H Hp E. destruct (rel_holds _ _ _ _ R H) as (p' & c & _ & Hp' & C & D). assert (p' = p) by congruence. subst p'.
  unfold meaning, with_free, with_arr, unless in E. rewrite F, H in E. rewrite (cr_sh _ _ _ D) in E.
  unfold as_type. unfold hget. rewrite C. cbn [bind].
  destruct (nonempty (c_shape c)) eqn:Ne; [|easy]. cbn [negb] in E. injection E as <-.
  eapply good_new; eauto; try apply (cr_sz _ _ _ D); [| |now left].
  - rewrite map_length. apply (values_length _ _ _ D).
  - pj. eapply fill_copy; eauto. intros E. now rewrite E in Ne.
Qed.
Lemma ok_contiguous st s v w a p l : rel st s -> free s v = true -> holds s w = Some a -> handle st w = Ok p ->
  meaning (Contiguous v w) s = Some l -> good (bound st v (to_contiguous (m_heap st) p)) s l.
Proof.
  intros R F H Hp E. destruct (rel_holds _ _ _ _ R H) as (p' & c & _ & Hp' & C & D). assert (p' = p) by congruence. subst p'.
  unfold meaning, with_free, with_arr, empty in E. rewrite F, H in E. rewrite (cr_sh _ _ _ D) in E.
  unfold to_contiguous. unfold hget. rewrite C. cbn [bind].
  destruct (is_contiguous c) eqn:Ct.
  - eapply good_alias; eauto. destruct (Z.eqb_spec (size (c_shape c)) 0) as [Z0|Z0]; [injection E as <-; now left|].
    rewrite <- (contig_nonempty _ _ _ D Z0), Ct in E. injection E as <-. now left.
  - assert (Ne : c_shape c <> []).
    { intros E0. unfold is_contiguous in Ct. pose proof (cr_len _ _ _ D) as L. rewrite E0 in *. destruct (c_strides c); [|easy]. now destruct (c_dl c). }
    assert (Ev : values (mem s) a = map (convert (a_dt a) (c_dt c)) (values (mem s) a)).
    { rewrite (cr_dt _ _ _ D). rewrite map_ext with (g := fun x => x) by (intros; apply convert_same). now rewrite map_id. }
    eapply good_new with (xs := values (mem s) a); eauto; try apply (cr_sz _ _ _ D).
    + apply (values_length _ _ _ D).
    + unfold assign_nd. unfold is_contiguous at 2. pj. rewrite andb_true_r. rewrite Ev. eapply fill_copy; eauto.
    + rewrite <- (cr_dt _ _ _ D). destruct (Z.eqb_spec (size (c_shape c)) 0) as [Z0|Z0]; [injection E as <-; right; now left|].
      rewrite <- (contig_nonempty _ _ _ D Z0), Ct in E. injection E as <-. now left.
Qed.
Lemma ok_copy_to st s v w a p l : rel st s -> free s v = true -> holds s w = Some a -> handle st w = Ok p ->
  meaning (CopyTo v w) s = Some l -> good (bound st v (copy_to (m_heap st) p)) s l.
Proof.
  intros R F H Hp E. destruct (rel_holds _ _ _ _ R H) as (p' & c & _ & Hp' & C & D). assert (p' = p) by congruence. subst p'.
  unfold meaning, with_free, with_arr, unless, empty in E. rewrite F, H in E. rewrite (cr_sh _ _ _ D) in E.
  unfold copy_to. unfold hget. rewrite C. cbn [bind]. rewrite data_size_eq by apply (cr_sz _ _ _ D).
  assert (Ev : values (mem s) a = map (convert (a_dt a) (c_dt c)) (values (mem s) a)).
  { rewrite (cr_dt _ _ _ D). rewrite map_ext with (g := fun x => x) by (intros; apply convert_same). now rewrite map_id. }
  destruct (negb (size (c_shape c) =? 0) && negb (contiguous a)) eqn:B; [easy|]. injection E as <-.
  eapply good_new with (xs := values (mem s) a); eauto; try apply (cr_sz _ _ _ D).
  - apply (values_length _ _ _ D).
  - pj. rewrite Ev. rewrite ?raw_new. eapply fill_flat; eauto. intros Z0.
    destruct (Z.eqb_spec (size (c_shape c)) 0); [easy|]. cbn [negb andb] in B. apply negb_false_iff in B.
    rewrite <- (contig_nonempty _ _ _ D Z0) in B. now apply (contig_true _ _ _ D B).
  - rewrite (cr_dt _ _ _ D). now left.
Qed.

(** *** Arithmetic *)
Lemma all_map {A B} (f : A -> option B) l xs : all (map f l) = Some xs -> forall d, exists g, xs = map g l /\ forall x, In x l -> f x = Some (g x) /\ (d = d :> B).
Proof.
  revert xs; induction l as [|x l IH]; intros xs E d; cbn [map all] in E.
  - injection E as <-. exists (fun _ => d). easy.
  - destruct (f x) as [y|] eqn:Ex; [|easy]. destruct (all (map f l)) as [r|] eqn:Er; [|easy]. injection E as <-.
    exists (fun z => match f z with Some y => y | None => d end). destruct (IH r eq_refl d) as (g & -> & Hg). split.
    + cbn [map]. rewrite Ex. f_equal. apply map_ext_in. intros z I. now rewrite (proj1 (Hg z I)).
    + intros z [<-|I]; [now rewrite Ex|]. now rewrite (proj1 (Hg z I)).
Qed.
Lemma contig_scalar m c a : crel m c a -> c_shape c = [] -> is_contiguous c = true.
Proof. intros D E0. unfold is_contiguous. pose proof (cr_len _ _ _ D) as L. rewrite E0 in *. destruct (c_strides c); [|easy]. now destruct (c_dl c). Qed.

Lemma ok_number st s v w a p o (rv : bool) x l xs : rel st s -> free s v = true -> holds s w = Some a -> handle st w = Ok p ->
  all (map (fun y => if rv then compute (a_dt a) o (convert I64 (a_dt a) x) y else compute (a_dt a) o y (convert I64 (a_dt a) x)) (values (mem s) a)) = Some xs ->
  In (New v (a_dt a) (a_shape a) xs) l -> good (bound st v (with_number (m_heap st) o rv p x)) s l.
Proof.
  intros R F H Hp E I. destruct (rel_holds _ _ _ _ R H) as (p' & c & _ & Hp' & C & D). assert (p' = p) by congruence. subst p'.
  pose proof (crel_nonneg _ _ _ D) as N.
  unfold with_number. unfold hget. rewrite C. cbn [bind]. rewrite (cr_sh _ _ _ D), (cr_dt _ _ _ D) in *. set (d := c_dt c) in *.
  rewrite (values_at _ _ _ D), map_map in E. destruct (all_map _ _ _ E 0) as (g & -> & Hg). clear E.
  assert (Hf : forall idx w', In idx (indices (c_shape c)) ->
     (let! y := load (blks (m_heap st) ++ [Some w']) (padd (raw c) (dot idx (c_strides c))) in num_op d o rv d y x) = Ok (g idx)).
  { intros idx w' J. rewrite (src_load _ _ _ _ _ _ _ R C D J). cbn [bind]. destruct (Hg idx J) as [G _]. unfold num_op.
    rewrite !conv_convert, convert_same. destruct rv; rewrite map_op_compute, G; easy. }
  eapply good_new with (xs := map g (indices (c_shape c))); eauto; try apply (cr_sz _ _ _ D).
  - rewrite map_length. now apply indices_length.
  - pj. rewrite ?raw_new.
    rewrite item_num_eq by apply (cr_sz _ _ _ D).
    rewrite <- (fill_indices (fun idx m => let! y := load m (padd (raw c) (dot idx (c_strides c))) in num_op d o rv d y x) g _ _ N Hf).
    destruct (is_contiguous c) eqn:Ct.
    + destruct (contig_true _ _ _ D Ct) as [Rm _]. rewrite flat_loop by easy. apply for_each_ext. intros idx m J.
      rewrite Rm by now apply (in_indices_size _ idx). cbn [padd]. rewrite Z.add_0_l. now rewrite bind_assoc.
    + rewrite scalar_assign_loop.
      * apply for_each_ext. intros idx m J. cbn [padd]. rewrite Z.add_0_l. now rewrite bind_assoc.
      * apply row_major_length.
      * apply (cr_len _ _ _ D).
      * intros E0. rewrite (contig_scalar _ _ _ D E0) in Ct. easy.
Qed.
Lemma ok_arith_num st s v w a p o x l : rel st s -> free s v = true -> holds s w = Some a -> handle st w = Ok p ->
  meaning (ArithNum o v w x) s = Some l -> good (bound st v (arith_num (m_heap st) o p x)) s l.
Proof.
  intros R F H Hp E. unfold meaning, with_free, with_arr, unless in E. rewrite F, H in E. unfold arith_num.
  destruct o; cbn [negb] in E.
  - destruct (negb (int64b x)); [easy|]. destruct (all _) as [xs|] eqn:Ea; [|easy]. injection E as <-. eapply ok_number with (rv := false); eauto. now left.
  - unfold chk64. destruct (int64b (- x)) eqn:B; [|easy]. cbn [negb bind] in *. destruct (all _) as [xs|] eqn:Ea; [|easy]. injection E as <-.
    eapply ok_number with (rv := false); eauto. now left.
  - destruct (negb (int64b x)); [easy|]. destruct (all _) as [xs|] eqn:Ea; [|easy]. injection E as <-. eapply ok_number with (rv := false); eauto. now left.
Qed.
Lemma ok_num_minus st s v w a p x l : rel st s -> free s v = true -> holds s w = Some a -> handle st w = Ok p ->
  meaning (NumMinus v x w) s = Some l -> good (bound st v (with_number (m_heap st) Minus true p x)) s l.
Proof.
  intros R F H Hp E. unfold meaning, with_free, with_arr, unless in E. rewrite F, H in E.
  destruct (all _) as [xs|] eqn:Ea; [|easy]. injection E as <-. eapply ok_number with (rv := true); eauto. now left.
Qed.

(** Broadcasting *)
Lemma broadcast_rev_snoc a : forall b x y, length a = length b ->
  broadcast_rev (a ++ [x]) (b ++ [y]) =
  match (if x =? y then Some x else if x =? 1 then Some y else if y =? 1 then Some x else None) with Some z => match broadcast_rev a b with Some l => Some (l ++ [z]) | None => None end | None => None end.
Proof.
  induction a as [|u a IH]; intros [|w b] x y L; try easy.
  - cbn [app broadcast_rev]. rewrite IH by (cbn in L; lia). destruct ((if u =? w then Some u else if u =? 1 then Some w else if w =? 1 then Some u else None)); [|now destruct ((if x =? y then Some x else if x =? 1 then Some y else if y =? 1 then Some x else None))].
    destruct ((if x =? y then Some x else if x =? 1 then Some y else if y =? 1 then Some x else None)); [|easy]. destruct (broadcast_rev a b); easy.
Qed.
Lemma stretch_rev a : forall b, length a = length b ->
  stretch a b = match broadcast_rev (rev a) (rev b) with Some l => Some (rev l) | None => None end.
Proof.
  induction a as [|x a IH]; intros [|y b] L; try easy. cbn [rev stretch]. rewrite broadcast_rev_snoc by (rewrite !rev_length; cbn in L; lia).
  rewrite IH by (cbn in L; lia). destruct (broadcast_rev (rev a) (rev b)) as [l|].
  - destruct (x =? y); [now rewrite rev_app_distr|]. destruct (x =? 1); [now rewrite rev_app_distr|]. destruct (y =? 1); [now rewrite rev_app_distr|easy].
  - now destruct ((if x =? y then Some x else if x =? 1 then Some y else if y =? 1 then Some x else None)).
Qed.
Lemma broadcast_pad_l a : forall b, broadcast_rev (a ++ repeat 1 (length b - length a)) b = broadcast_rev a b.
Proof.
  induction a as [|x a IH]; intros b.
  - cbn [app length]. rewrite Nat.sub_0_r. induction b as [|y b IHb]; [easy|]. cbn [length repeat broadcast_rev].
    cbn [broadcast_rev] in IHb. rewrite IHb. destruct (Z.eqb_spec 1 y) as [<-|]; easy.
  - destruct b as [|y b]; cbn [length app Nat.sub]; [now rewrite app_nil_r|]. cbn [broadcast_rev]. now rewrite IH.
Qed.
Lemma broadcast_pad_r b : forall a, broadcast_rev a (b ++ repeat 1 (length a - length b)) = broadcast_rev a b.
Proof.
  induction b as [|x b IH]; intros a.
  - cbn [app length]. rewrite Nat.sub_0_r. induction a as [|y a IHa]; [easy|]. cbn [length repeat broadcast_rev].
    cbn [broadcast_rev] in IHa. rewrite IHa. destruct (Z.eqb_spec y 1) as [->|]; [now destruct a|]. now destruct a.
  - destruct a as [|y a]; cbn [length app Nat.sub]; [now rewrite app_nil_r|]. cbn [broadcast_rev]. now rewrite IH.
Qed.
Lemma rev_repeat {A} (x : A) n : rev (repeat x n) = repeat x n.
Proof. induction n; cbn; [easy|]. rewrite IHn. clear. induction n; cbn; [easy|]. now rewrite IHn. Qed.
Lemma broadcast_eq a b : broadcast a b = broadcast_shape a b.
Proof.
  unfold broadcast, broadcast_shape. rewrite stretch_rev by (rewrite !pad_length; lia). unfold pad. rewrite !rev_app_distr, !rev_repeat.
  destruct (Nat.le_ge_cases (length a) (length b)) as [L|L].
  - replace (length a - length b)%nat with 0%nat by lia. cbn [repeat]. rewrite app_nil_r.
    rewrite <- (rev_length a), <- (rev_length b) at 1. now rewrite broadcast_pad_l.
  - replace (length b - length a)%nat with 0%nat by lia. cbn [repeat]. rewrite app_nil_r.
    rewrite <- (rev_length a), <- (rev_length b) at 1. now rewrite broadcast_pad_r.
Qed.
Lemma broadcast_fit a b sh : broadcast a b = Some sh ->
  (length a <= length sh)%nat /\ (length b <= length sh)%nat /\
  Forall2 (fun x z => x = z \/ x = 1) (pad (length sh) a) sh /\ Forall2 (fun x z => x = z \/ x = 1) (pad (length sh) b) sh.
Proof.
  intros E. apply stretch_spec in E as (L1 & L2 & F1 & F2). rewrite !pad_length in *.
  assert (P : forall k l, pad (Nat.max k (length l)) l = pad k l).
  { intros k l. unfold pad. do 2 f_equal. lia. }
  split; [lia|]. split; [lia|]. split.
  - rewrite <- L1, P. exact F1.
  - rewrite <- L2, P. exact F2.
Qed.
Lemma broadcast_self a : broadcast a a = Some a.
Proof.
  unfold broadcast, pad. rewrite Nat.sub_diag. cbn [repeat app]. induction a as [|x a IH]; [easy|]. cbn [stretch]. now rewrite IH, Z.eqb_refl.
Qed.
Lemma narrow_self sh : forall idx, In idx (indices sh) -> narrow sh idx = idx.
Proof.
  induction sh as [|n sh IH]; intros idx I; apply in_indices in I; inversion I as [|i ? idx' ? B F]; subst; [easy|]. cbn [narrow].
  rewrite IH by now apply in_indices. destruct (Z.eqb_spec n 1); [f_equal; lia|easy].
Qed.
Lemma stretched_self c m a idx : crel m c a -> In idx (indices (c_shape c)) -> stretched (c_shape c) (values m a) idx = value m (cell_at c idx).
Proof.
  intros D I. unfold stretched. rewrite (indices_len_in _ _ I), Nat.sub_diag. cbn [skipn]. rewrite narrow_self by easy.
  rewrite (values_at _ _ _ D). apply at_index_map with (f := fun idx => value m (cell_at c idx)); [|easy]. apply (crel_nonneg _ _ _ D).
Qed.
Lemma stretched_at c m a sh idx : crel m c a -> (length (c_shape c) <= length sh)%nat ->
  Forall2 (fun x z => x = z \/ x = 1) (pad (length sh) (c_shape c)) sh -> In idx (indices sh) ->
  exists j, In j (indices (c_shape c)) /\ dot idx (broadcast_stride sh (c_shape c) (c_strides c)) = dot j (c_strides c) /\
    stretched (c_shape c) (values m a) idx = value m (cell_at c j).
Proof.
  intros D L Fb I. destruct (bstride_dot sh (c_shape c) (c_strides c) idx (cr_len _ _ _ D) L Fb I) as [E J].
  eexists. split; [exact J|]. split; [exact E|]. unfold stretched. rewrite (values_at _ _ _ D).
  apply at_index_map with (f := fun idx => value m (cell_at c idx)); [|easy]. apply (crel_nonneg _ _ _ D).
Qed.
Lemma bstride_length sh a st : (length a <= length sh)%nat -> length st = length a -> length (broadcast_stride sh a st) = length sh.
Proof. intros L E. unfold broadcast_stride. rewrite app_length, repeat_length, map_length, combine_length. lia. Qed.
Lemma promotion a b : dtype_promotion a b = match promote a b with Some d => Ok d | None => Exn RuntimeError end.
Proof. unfold dtype_promotion, promote. now destruct (signed a && signed b). Qed.

Lemma ok_binary st s v w1 w2 a b p q o l : rel st s -> free s v = true -> holds s w1 = Some a -> handle st w1 = Ok p ->
  holds s w2 = Some b -> handle st w2 = Ok q ->
  meaning (Arith o v w1 w2) s = Some l -> good (bound st v (binary (m_heap st) o p q)) s l.
Proof.
  intros R F H1 Hp H2 Hq E.
  destruct (rel_holds _ _ _ _ R H1) as (p' & c & _ & Hp' & C & D). assert (p' = p) by congruence. subst p'.
  destruct (rel_holds _ _ _ _ R H2) as (q' & c' & _ & Hq' & C' & D'). assert (q' = q) by congruence. subst q'.
  unfold meaning, with_free, with_arr, unless in E. rewrite F, H1, H2 in E.
  unfold binary. unfold hget. rewrite C. cbn [bind]. rewrite C'. cbn [bind].
  rewrite (cr_sh _ _ _ D), (cr_dt _ _ _ D), (cr_sh _ _ _ D'), (cr_dt _ _ _ D') in *. rewrite promotion.
  destruct (promote (c_dt c) (c_dt c')) as [d|]; cbn [bind].
  2:{ injection E as <-. apply good_raise; auto. now left. }
  set (f := fun x y => map_op d o (conv (c_dt c) d x) (conv (c_dt c') d y)).
  unfold same_shape. destruct (list_eqb (c_shape c) (c_shape c') && is_contiguous c && is_contiguous c') eqn:B.
  - apply andb_true_iff in B as [B B3]. apply andb_true_iff in B as [B1 B2]. apply list_eqb_eq in B1.
    rewrite <- B1, broadcast_self in E. destruct (negb (sizable (c_shape c))) eqn:S; [easy|]. rewrite negb_false_iff in S.
    destruct (all _) as [xs|] eqn:Ea; [|easy]. injection E as <-. destruct (all_map _ _ _ Ea 0) as (g & -> & Hg).
    pose proof (sizable_nonneg _ S) as N.
    eapply good_new; eauto; [| |now left].
    + rewrite map_length. now apply indices_length.
    + pj. rewrite ?raw_new. rewrite item_num_eq by easy.
      rewrite <- (fill_indices (fun idx m => let! x := load m (padd (raw c) (dot idx (c_strides c))) in
                                             let! y := load m (padd (raw c') (dot idx (c_strides c'))) in f x y)); [|easy|].
      * destruct (contig_true _ _ _ D B2) as [Rm _]. destruct (contig_true _ _ _ D' B3) as [Rm' _]. rewrite flat_loop by easy.
        apply for_each_ext. intros idx m J. assert (Z0 : size (c_shape c) <> 0) by now apply (in_indices_size _ idx).
        rewrite Rm by easy. rewrite Rm' by now rewrite <- B1. rewrite <- B1. cbn [padd]. rewrite Z.add_0_l.
        rewrite bind_assoc. destruct (load m (padd (raw c) _)); try easy. cbn [bind]. now rewrite bind_assoc.
      * intros idx w J. rewrite (src_load _ _ _ _ _ _ _ R C D J). cbn [bind].
        assert (J' : In idx (indices (c_shape c'))) by now rewrite <- B1.
        rewrite (src_load _ _ _ _ _ _ _ R C' D' J'). cbn [bind]. unfold f. rewrite !conv_convert, map_op_compute.
        destruct (Hg idx J) as [G _]. rewrite (stretched_self _ _ _ _ D J) in G.
        rewrite B1 in G. rewrite (stretched_self _ _ _ _ D' J') in G. now rewrite G.
  - rewrite <- broadcast_eq. destruct (broadcast (c_shape c) (c_shape c')) as [sh|] eqn:Bc.
    2:{ injection E as <-. apply good_raise; auto. now left. }
    destruct (negb (sizable sh)) eqn:S; [easy|]. rewrite negb_false_iff in S.
    destruct (all _) as [xs|] eqn:Ea; [|easy]. injection E as <-. destruct (all_map _ _ _ Ea 0) as (g & -> & Hg).
    pose proof (sizable_nonneg _ S) as N. destruct (broadcast_fit _ _ _ Bc) as (L1 & L2 & F1 & F2).
    eapply good_new; eauto; [| |now left].
    + rewrite map_length. now apply indices_length.
    + pj. rewrite ?raw_new.
      rewrite <- (fill_indices (fun idx m => let! x := load m (padd (raw c) (dot idx (broadcast_stride sh (c_shape c) (c_strides c)))) in
                               let! y := load m (padd (raw c') (dot idx (broadcast_stride sh (c_shape c') (c_strides c')))) in f x y)); [|easy|].
      * rewrite binary_assign_loop.
        -- apply for_each_ext. intros idx m J. cbn [padd]. rewrite Z.add_0_l.
           rewrite bind_assoc. destruct (load m (padd (raw c) _)); try easy. cbn [bind]. now rewrite bind_assoc.
        -- apply row_major_length.
        -- apply bstride_length; [easy|apply (cr_len _ _ _ D)].
        -- apply bstride_length; [easy|apply (cr_len _ _ _ D')].
        -- intros ->. cbn [length] in L1, L2. destruct (c_shape c) eqn:E1; [|easy]. destruct (c_shape c') eqn:E2; [|easy].
           rewrite (contig_scalar _ _ _ D E1), (contig_scalar _ _ _ D' E2) in B. easy.
      * intros idx w J. destruct (stretched_at _ _ _ _ _ D L1 F1 J) as (j1 & J1 & -> & V1).
        destruct (stretched_at _ _ _ _ _ D' L2 F2 J) as (j2 & J2 & -> & V2).
        rewrite (src_load _ _ _ _ _ _ _ R C D J1). cbn [bind]. rewrite (src_load _ _ _ _ _ _ _ R C' D' J2). cbn [bind].
        unfold f. rewrite !conv_convert, map_op_compute. destruct (Hg idx J) as [G _]. rewrite V1, V2 in G. now rewrite G.
Qed.
