(** The operations one by one: arrays joined along an axis. *)
From Verif Require Import Base ListAux NdSpec NdModel NdAux NdMem NdInv NdProofs NdOps NdFill NdShow NdSet.
From Coq Require Import Permutation.
Local Open Scope Z_scope.

(** *** Regions with the numbers written there *)
Fixpoint zipped (k : nat) (o : Z) (st : list Z) (l : list (list Z * list Z)) : list (list Z * list (Z * Z)) :=
  match l with
  | [] => []
  | (sh, ys) :: l => (sh, combine (offs o sh st) ys) :: zipped k (o + nth k sh 0 * nth k st 0) st l
  end.
Lemma zipped_fst k st : forall l o, Forall (fun p => nonneg (fst p) /\ length (fst p) = length st /\ length (snd p) = Z.to_nat (size (fst p))) l ->
  map (fun p => (fst p, map fst (snd p))) (zipped k o st l) = regions k o st (map fst l).
Proof.
  induction l as [|[sh ys] l IH]; intros o F; [easy|]. inversion F as [|? ? (N & L & S) F']; subst. cbn [fst snd] in *.
  cbn [zipped map regions fst snd]. rewrite IH by easy. rewrite map_fst_combine; [easy|]. rewrite offs_length; auto.
Qed.
Lemma zipped_snd k st : forall l o, Forall (fun p => nonneg (fst p) /\ length (fst p) = length st /\ length (snd p) = Z.to_nat (size (fst p))) l ->
  map (fun p => (fst p, map snd (snd p))) (zipped k o st l) = l.
Proof.
  induction l as [|[sh ys] l IH]; intros o F; [easy|]. inversion F as [|? ? (N & L & S) F']; subst. cbn [fst snd] in *.
  cbn [zipped map fst snd]. rewrite IH by easy. rewrite map_snd_combine; [easy|]. rewrite offs_length; auto.
Qed.
Lemma combine_pairs {A B} (l : list (A * B)) : combine (map fst l) (map snd l) = l.
Proof. induction l as [|[a b] l IH]; cbn; congruence. Qed.
Lemma agree_remove k : forall s sh, (k < length s)%nat -> length s = length sh -> remove k s = remove k sh -> agree k s sh.
Proof.
  induction k as [|k IH]; intros [|n s] [|n' sh] L E R; cbn in *; try easy; try lia. injection R as -> R. split; [easy|]. apply IH; auto; lia.
Qed.
Lemma lset_remove k : forall s sh, (k < length s)%nat -> length s = length sh -> remove k s = remove k sh -> lset sh k (nth k s 0) = s.
Proof.
  induction k as [|k IH]; intros [|n s] [|n' sh] L E R; cbn in *; try easy; try lia; [now subst|]. injection R as -> R. f_equal. apply IH; auto; lia.
Qed.
Lemma remove_lset k : forall sh x, remove k (lset sh k x) = remove k sh.
Proof. induction k as [|k IH]; intros [|n sh] x; cbn; try easy. now rewrite IH. Qed.
Lemma nth_lset_here k : forall sh x, (k < length sh)%nat -> nth k (lset sh k x) 0 = x.
Proof. induction k as [|k IH]; intros [|n sh] x L; cbn in *; try easy; try lia. apply IH. lia. Qed.
Lemma lset_lset k : forall (sh : list Z) x y, lset (lset sh k x) k y = lset sh k y.
Proof. induction k as [|k IH]; intros [|n sh] x y; cbn; try easy. now rewrite IH. Qed.

Definition part_ok (k : nat) (sh : list Z) (p : list Z * list Z) :=
  nonneg (fst p) /\ length (fst p) = length sh /\ (k < length (fst p))%nat /\ remove k (fst p) = remove k sh /\ length (snd p) = Z.to_nat (size (fst p)).
Lemma joined k sh items J : Forall (part_ok k sh) items -> match items with [] => False | p :: _ => fst p = sh end ->
  J = lset sh k (sum (map (fun p => nth k (fst p) 0) items)) ->
  nonneg J /\ length J = length sh /\
  wputs (repeat None (Z.to_nat (size J))) (flat_map snd (zipped k 0 (row_major J) items)) = map Some (cat k items) /\
  length (cat k items) = Z.to_nat (size J) /\
  (forall x, In x (flat_map snd (regions k 0 (row_major J) (map fst items))) -> 0 <= x < size J).
Proof.
  intros F H EJ.
  assert (LJ : length J = length sh) by (rewrite EJ; apply lset_length).
  assert (NJ : nonneg J).
  { assert (0 <= sum (map (fun p => nth k (fst p) 0) items)).
    { clear -F. unfold sum. induction F as [|p items (N & _ & L & _) F IH]; cbn [map fold_right]; [lia|]. unfold nonneg in N. rewrite Forall_forall in N.
      pose proof (N (nth k (fst p) 0) (nth_In _ _ L)). lia. }
    assert (nonneg sh). { destruct items as [|p items]; [easy|]. inversion F as [|? ? (N & _) _]; subst. easy. }
    rewrite EJ. apply Forall_forall. intros x I. apply in_lset in I as [->|I]; [easy|]. unfold nonneg in *. rewrite Forall_forall in *. auto. }
  assert (F' : Forall (fun p => nonneg (fst p) /\ length (fst p) = length (row_major J) /\ length (snd p) = Z.to_nat (size (fst p))) items).
  { eapply Forall_impl; [|exact F]. intros p (N & L & _ & _ & S). rewrite row_major_length, LJ. easy. }
  pose proof (zipped_fst k (row_major J) items 0 F') as Z1. pose proof (zipped_snd k (row_major J) items 0 F') as Z2.
  set (Zp := zipped k 0 (row_major J) items) in *.
  assert (E1 : map fst (cat k Zp) = zrange (size J)).
  { rewrite <- cat_map, Z1. rewrite (cat_regions k 0 (row_major J) (map fst items) sh).
    - rewrite map_map, <- EJ, offs_row_major by easy. rewrite <- (map_id (zrange (size J))) at 2. now apply map_ext.
    - rewrite Forall_map. eapply Forall_impl; [|exact F]. intros p (N & L & K & R & S). rewrite row_major_length, LJ. easy.
    - destruct items; [easy|]. exact H. }
  assert (E2 : map snd (cat k Zp) = cat k items) by (rewrite <- cat_map, Z2; easy).
  assert (E3 : cat k Zp = combine (zrange (size J)) (cat k items)) by (rewrite <- E1, <- E2; symmetry; apply combine_pairs).
  assert (Len : length (cat k items) = Z.to_nat (size J)) by (rewrite <- E2, <- (zrange_length (size J)), <- E1, !map_length; easy).
  assert (P1 : Permutation (cat k Zp) (flat_map snd Zp)).
  { apply (cat_perm k Zp sh).
    - apply Forall_forall. intros p I. assert (I' : In (fst p, map snd (snd p)) items) by (rewrite <- Z2; apply in_map_iff; eauto).
      rewrite Forall_forall in F. destruct (F _ I') as (N & L & _ & _ & S). cbn [fst snd] in *. rewrite map_length in S. easy.
    - apply Forall_forall. intros p I. assert (I' : In (fst p, map snd (snd p)) items) by (rewrite <- Z2; apply in_map_iff; eauto).
      rewrite Forall_forall in F. destruct (F _ I') as (N & L & K & R & S). cbn [fst snd] in *. apply agree_remove; easy. }
  split; [easy|]. split; [easy|]. split; [|split; [easy|]].
  - apply wputs_full; [easy|]. rewrite <- E3. now symmetry.
  - intros x I. rewrite <- Z1 in I. rewrite flat_map_map in I. apply in_zrange. rewrite <- E1. 
    apply (Permutation_in x (Permutation_map fst (Permutation_sym P1))). rewrite map_flat_map. exact I.
Qed.

(** *** One array copied to its region *)
Lemma region_loop st s p c a d o tst w (sh := c_shape c) (bl := blks (m_heap st)) : rel st s -> cont_at (m_heap st) p c -> crel (mem s) c a ->
  length tst = length sh -> (forall x, In x (offs o sh tst) -> 0 <= x < Z.of_nat (length w)) ->
  for_each (indices sh) (fun idx m => let! x := load m (padd (raw c) (dot idx (c_strides c))) in
      store m (padd (Some (length bl, o)) (dot idx tst)) (conv (c_dt c) d x)) (bl ++ [Some w])
  = Ok (bl ++ [Some (wputs w (combine (offs o sh tst) (map (convert (a_dt a) d) (values (mem s) a))))]).
Proof.
  intros R C D Lt B. rewrite (map_values _ _ _ _ D), (cr_dt _ _ _ D), offs_indices in * by easy. fold sh. rewrite combine_map2.
  rewrite <- fill_each with (f := fun idx m => let! x := load m (padd (raw c) (dot idx (c_strides c))) in Ok (conv (c_dt c) d x)).
  - apply for_each_ext. intros idx m I. rewrite bind_assoc. easy.
  - intros idx w' I _. unfold bl. rewrite (src_load _ _ _ _ _ _ w' R C D I). cbn [bind]. now rewrite conv_convert.
  - intros idx I. apply B. apply in_map_iff. eauto.
Qed.
Lemma overlap_new' st s p c n o : rel st s -> cont_at (m_heap st) p c -> overlap (Some (length (blks (m_heap st)), o)) (raw c) n = false.
Proof.
  intros R C. unfold overlap. destruct (raw c) as [[b o']|] eqn:E; [|easy]. pose proof (src_blk _ _ _ _ _ _ R C E).
  destruct (Nat.eqb_spec (length (blks (m_heap st))) b); [lia|easy].
Qed.
Lemma region_flat st s p c a d o tst w (sh := c_shape c) (bl := blks (m_heap st)) : rel st s -> cont_at (m_heap st) p c -> crel (mem s) c a ->
  length tst = length sh -> (forall x, In x (offs o sh tst) -> 0 <= x < Z.of_nat (length w)) ->
  is_contiguous c = true -> (size sh <> 0 -> tst = row_major sh) ->
  assign_flat (c_dt c) d (Some (length bl, o)) (raw c) (size sh) (bl ++ [Some w])
  = Ok (bl ++ [Some (wputs w (combine (offs o sh tst) (map (convert (a_dt a) d) (values (mem s) a))))]).
Proof.
  intros R C D Lt B Ct Rm. pose proof (crel_nonneg _ _ _ D) as N. fold sh in N. unfold assign_flat, copy_elements. unfold bl at 1.
  rewrite (overlap_new' _ _ _ _ _ _ R C), andb_false_r. rewrite flat_loop by easy.
  rewrite <- (region_loop _ _ _ _ _ _ _ _ _ R C D Lt B). fold bl sh. apply for_each_ext. intros idx m I.
  assert (Z0 : size sh <> 0) by now apply (in_indices_size _ idx). destruct (contig_true _ _ _ D Ct) as [E _]. rewrite (E Z0), (Rm Z0). easy.
Qed.
Lemma region_strided st s p c a d o tst w (sh := c_shape c) (bl := blks (m_heap st)) : rel st s -> cont_at (m_heap st) p c -> crel (mem s) c a ->
  length tst = length sh -> (forall x, In x (offs o sh tst) -> 0 <= x < Z.of_nat (length w)) -> sh <> [] ->
  assign (c_dt c) d (Some (length bl, o)) (raw c) tst (c_strides c) sh (bl ++ [Some w])
  = Ok (bl ++ [Some (wputs w (combine (offs o sh tst) (map (convert (a_dt a) d) (values (mem s) a))))]).
Proof.
  intros R C D Lt B Ne. rewrite assign_loop; [|easy|apply (cr_len _ _ _ D)|easy]. now apply (region_loop _ _ _ _ _ _ _ _ _ R C D Lt B).
Qed.

(** *** Lists of arrays *)
Lemma Forall2_len {A B} (P : A -> B -> Prop) l l' : Forall2 P l l' -> length l = length l'.
Proof. induction 1; cbn; congruence. Qed.
Definition known (st : mstate) (s : state) (c : cont) (a : arr) := (exists p, cont_at (m_heap st) p c) /\ crel (mem s) c a.
Lemma with_arrs_inv s : forall ws k l, with_arrs s ws k = Some l -> exists al, Forall2 (fun w a => holds s w = Some a) ws al /\ k al = Some l.
Proof.
  induction ws as [|w ws IH]; intros k l E.
  - exists []. split; [constructor|easy].
  - cbn [with_arrs] in E. unfold with_arr in E. destruct (holds s w) as [a|] eqn:H; [|easy]. apply IH in E as (al & F & E).
    exists (a :: al). split; [now constructor|easy].
Qed.
Lemma handles_known st s : rel st s -> forall ws al, Forall2 (fun w a => holds s w = Some a) ws al ->
  exists ps cs, handles st ws = Ok ps /\ hgets (m_heap st) ps = Ok cs /\ Forall2 (known st s) cs al.
Proof.
  intros R ws al F. induction F as [|w a ws al H F (ps & cs & E1 & E2 & E3)].
  - exists [], []. easy.
  - destruct (rel_holds _ _ _ _ R H) as (p & c & _ & Hp & C & D). exists (p :: ps), (c :: cs). cbn [handles hgets]. rewrite Hp. cbn [bind]. rewrite E1. cbn [bind].
    split; [easy|]. unfold hget. rewrite C. cbn [bind]. rewrite E2. cbn [bind]. split; [easy|]. constructor; [|easy]. split; [eauto|easy].
Qed.
Definition item (m : list (list Z)) (d : dtype) (f : list Z -> list Z) (a : arr) : list Z * list Z :=
  (f (a_shape a), map (convert (a_dt a) d) (values m a)).

(** *** concatenate *)
Lemma slide_ok st s k d stJ w0 bd sh0 (bl := blks (m_heap st)) : rel st s -> forall cs al, Forall2 (known st s) cs al ->
  forall o vsh dl ow w, length w = w0 -> length vsh = length sh0 -> remove k vsh = remove k sh0 -> length stJ = length sh0 ->
  Forall (part_ok k sh0) (map (item (mem s) d (fun x => x)) al) -> bd = Z.of_nat w0 ->
  (forall x, In x (flat_map snd (regions k o stJ (map a_shape al))) -> 0 <= x < bd) ->
  slide k (Cont 1 (Some (length bl, 0)) o vsh stJ dl d ow) cs (bl ++ [Some w]) =
  Ok (bl ++ [Some (wputs w (flat_map snd (zipped k o stJ (map (item (mem s) d (fun x => x)) al))))]).
Proof.
  intros R cs al F. induction F as [|c a cs al [[p C] D] F IH]; intros o vsh dl ow w Lw Lv Rv Ls Pk Eb B; [easy|].
  cbn [map] in Pk. inversion Pk as [|? ? (N & La & Lk & Ra & Sa) Pk']; subst. cbn [item fst snd] in N, La, Lk, Ra, Sa.
  cbn [slide map zipped flat_map regions item fst snd] in *. unfold rd. pose proof (cr_sh _ _ _ D) as Sh. rewrite Sh in *.
  rewrite (nth_error_nth' _ 0 Lk). cbn [bind c_data c_off c_shape c_strides c_dt c_owner].
  assert (Ev : lset vsh k (nth k (c_shape c) 0) = c_shape c) by (apply lset_remove; [easy|congruence|congruence]). rewrite Ev.
  assert (Bo : forall x, In x (offs o (c_shape c) stJ) -> 0 <= x < Z.of_nat (length w)) by (intros x I; apply B; apply in_or_app; now left).
  assert (Ne : c_shape c <> []) by (destruct (c_shape c); [cbn in Lk; lia|easy]).
  assert (Lt : length stJ = length (c_shape c)) by congruence.
  set (w1 := wputs w (combine (offs o (c_shape c) stJ) (map (convert (a_dt a) d) (values (mem s) a)))).
  assert (As : assign_nd c (Cont 1 (Some (length bl, 0)) o (c_shape c) stJ true d ow) (bl ++ [Some w]) = Ok (bl ++ [Some w1])).
  { unfold assign_nd. pj. replace (raw (Cont 1 (Some (length bl, 0)) o (c_shape c) stJ true d ow)) with (Some (length bl, o)) by (unfold raw; cbn [padd c_data c_off]; now rewrite Z.add_0_l).
    destruct (is_contiguous c && is_contiguous (Cont 1 (Some (length bl, 0)) o (c_shape c) stJ true d ow)) eqn:Ct.
    - apply andb_true_iff in Ct as [C1 C2]. destruct (contig_true _ _ _ D C1) as [_ E]. rewrite (E Ne). cbn [bind].
      apply (region_flat _ _ _ _ _ _ _ _ _ R C D Lt Bo C1). intros _. cbn [is_contiguous c_dl c_shape c_strides] in C2.
      unfold is_contiguous in C2. pj. rewrite is_contig_eq in C2; [|easy|apply (cr_sz _ _ _ D)]. now apply list_eqb_eq in C2.
    - now apply (region_strided _ _ _ _ _ _ _ _ _ R C D Lt Bo). }
  rewrite As. cbn [bind]. unfold rd. rewrite (nth_error_nth' _ 0) by (rewrite Lt; exact Lk). cbn [bind].
  rewrite IH; try easy.
  - cbn [item fst snd]. rewrite wputs_app. unfold w1. rewrite <- Sh. easy.
  - unfold w1. apply wputs_length.
  - intros x I. apply B. apply in_or_app. now right.
Qed.

Lemma add_shape_past axis : forall sh sh' i, axis < i -> length sh' = length sh ->
  add_shape i axis sh sh' = if list_eqb sh' sh then Ok sh else Exn CheckFailed.
Proof.
  induction sh as [|n sh IH]; intros [|n' sh'] i Hi L; try easy. cbn [add_shape list_eqb].
  destruct (Z.eqb_spec i axis); [lia|]. rewrite IH by (cbn in L; lia). rewrite (Z.eqb_sym n' n). destruct (n =? n'); [|easy]. cbn [andb]. now destruct (list_eqb _ _).
Qed.
Lemma add_shape_eq axis : forall sh sh' i, i <= axis < i + Z.of_nat (length sh) -> length sh' = length sh ->
  add_shape i axis sh sh' = let k := Z.to_nat (axis - i) in
    if list_eqb (remove k sh') (remove k sh) then Ok (lset sh k (nth k sh 0 + nth k sh' 0)) else Exn CheckFailed.
Proof.
  induction sh as [|n sh IH]; intros [|n' sh'] i Hi L; try easy; [cbn in Hi; lia|]. cbn [add_shape]. cbv zeta.
  destruct (Z.eqb_spec i axis) as [->|Ne].
  - rewrite add_shape_past by (cbn in L; lia). rewrite Z.sub_diag. cbn [Z.to_nat remove lset nth]. now destruct (list_eqb _ _).
  - replace (Z.to_nat (axis - i)) with (Datatypes.S (Z.to_nat (axis - (i + 1)))) by lia. cbn [remove lset nth list_eqb].
    rewrite IH by (cbn [length] in *; lia). cbv zeta. rewrite (Z.eqb_sym n' n). destruct (n =? n'); [|easy]. cbn [andb]. now destruct (list_eqb _ _).
Qed.
Lemma add_shapes_eq axis sh0 : 0 <= axis < Z.of_nat (length sh0) -> forall cs sh, length sh = length sh0 -> let k := Z.to_nat axis in remove k sh = remove k sh0 ->
  add_shapes axis sh cs =
    if forallb (fun c => (length (c_shape c) =? length sh0)%nat && list_eqb (remove k (c_shape c)) (remove k sh0)) cs
    then Ok (lset sh k (nth k sh 0 + sum (map (fun c => nth k (c_shape c) 0) cs))) else Exn CheckFailed.
Proof.
  intros Ha. induction cs as [|c cs IH]; intros sh L k Rk; cbn [add_shapes forallb map].
  - change (sum []) with 0. rewrite Z.add_0_r. f_equal. symmetry. apply lset_remove; auto. lia.
  - rewrite L. destruct (Nat.eqb_spec (length (c_shape c)) (length sh0)) as [Lc|]; [|easy]. cbn [negb andb].
    rewrite add_shape_eq by lia. cbv zeta. rewrite Z.sub_0_r. fold k. rewrite Rk. destruct (list_eqb (remove k (c_shape c)) (remove k sh0)); [|easy]. cbn [andb bind].
    rewrite IH; [|now rewrite lset_length|now rewrite remove_lset]. fold k. rewrite lset_lset, nth_lset_here by lia.
    destruct (forallb _ cs); [|easy]. do 2 f_equal. change (sum (nth k (c_shape c) 0 :: map (fun c0 => nth k (c_shape c0) 0) cs)) with (nth k (c_shape c) 0 + sum (map (fun c0 => nth k (c_shape c0) 0) cs)). lia.
Qed.
Lemma known_shapes {B} st s cs al (f : list Z -> B) : Forall2 (known st s) cs al -> map (fun c => f (c_shape c)) cs = map (fun a => f (a_shape a)) al.
Proof. induction 1 as [|c a cs al [_ D] F IH]; cbn [map]; [easy|]. now rewrite IH, (cr_sh _ _ _ D). Qed.
Lemma forallb_map' {A B} (f : A -> B) g l : forallb g (map f l) = forallb (fun x => g (f x)) l.
Proof. induction l; cbn; congruence. Qed.
Lemma known_test st s cs al (f : list Z -> bool) : Forall2 (known st s) cs al -> forallb (fun c => f (c_shape c)) cs = forallb (fun a => f (a_shape a)) al.
Proof. induction 1 as [|c a cs al [_ D] F IH]; cbn [forallb]; [easy|]. now rewrite IH, (cr_sh _ _ _ D). Qed.
Lemma item_fit st s c a d : known st s c a -> length (map (convert (a_dt a) d) (values (mem s) a)) = Z.to_nat (size (a_shape a)) /\ nonneg (a_shape a).
Proof. intros [_ D]. rewrite map_length, (values_length _ _ _ D), (cr_sh _ _ _ D). split; [easy|apply (crel_nonneg _ _ _ D)]. Qed.
Lemma known_in st s cs al : Forall2 (known st s) cs al -> forall a, In a al -> exists c, known st s c a.
Proof. induction 1 as [|c a cs al K F IH]; intros b I; [easy|]. destruct I as [<-|I]; eauto. Qed.

Lemma ok_concat st s v ws axis l : rel st s -> free s v = true -> meaning (Concat v ws axis) s = Some l -> good (step (Concat v ws axis) st) s l.
Proof.
  intros R F E. unfold meaning, with_free in E. rewrite F in E. apply with_arrs_inv in E as (al & Fw & E).
  destruct (handles_known _ _ R _ _ Fw) as (ps & cs & Hh & Hg & K). cbn [step]. rewrite Hh. cbn [bind]. unfold concatenate. rewrite Hg. cbn [bind].
  destruct K as [|c a cs al Kc K]; [injection E as <-; apply good_raise; auto; now left|].
  assert (Sh : a_shape a = c_shape c) by (destruct Kc as [_ D]; apply (cr_sh _ _ _ D)).
  assert (Dt : a_dt a = c_dt c) by (destruct Kc as [_ D]; apply (cr_dt _ _ _ D)).
  rewrite Sh in E. pose proof (norm_index (Z.of_nat (length (c_shape c))) axis) as Nm. unfold raise_if, unless in E.
  destruct (Z.eqb_spec (Z.of_nat (length (c_shape c))) 0) as [Z0|Z0].
  { destruct (norm (Z.of_nat (length (c_shape c))) axis) as [j|]; [lia|]. injection E as <-. apply good_raise; auto. now left. }
  destruct (norm (Z.of_nat (length (c_shape c))) axis) as [j|].
  2:{ injection E as <-. apply negb_true_iff, andb_false_iff in Nm. rewrite Z.leb_gt, Z.ltb_ge in Nm.
      destruct (Z.ltb_spec (index_correction axis (Z.of_nat (length (c_shape c)))) 0); [apply good_raise; auto; now left|].
      destruct (Z.leb_spec (Z.of_nat (length (c_shape c))) (index_correction axis (Z.of_nat (length (c_shape c))))); [apply good_raise; auto; now left|lia]. }
  destruct Nm as [-> Hj]. destruct (Z.ltb_spec j 0); [lia|]. destruct (Z.leb_spec (Z.of_nat (length (c_shape c))) j); [lia|]. cbn [orb].
  rewrite add_shapes_eq with (sh0 := c_shape c) by easy. set (k := Z.to_nat j) in *.
  rewrite (known_test st s cs al (fun x => (length x =? length (c_shape c))%nat && list_eqb (remove k x) (remove k (c_shape c))) K).
  assert (Jn : joinable k (map a_shape (a :: al)) = forallb (fun a0 => (length (a_shape a0) =? length (c_shape c))%nat && list_eqb (remove k (a_shape a0)) (remove k (c_shape c))) al).
  { cbn [map joinable forallb]. rewrite Sh, Nat.eqb_refl, list_eqb_refl. cbn [andb]. apply forallb_map'. }
  rewrite Jn in E. destruct (forallb _ al) eqn:Fb; [|injection E as <-; apply good_raise; auto; now left]. cbn [negb bind] in *.
  set (J := joined_shape k (map a_shape (a :: al))) in *.
  assert (EJ : J = lset (c_shape c) k (nth k (c_shape c) 0 + sum (map (fun c0 => nth k (c_shape c0) 0) cs))).
  { unfold J. cbn [map joined_shape]. rewrite Sh. f_equal. change (sum (nth k (c_shape c) 0 :: map (fun s0 => nth k s0 0) (map a_shape al))) with (nth k (c_shape c) 0 + sum (map (fun s0 => nth k s0 0) (map a_shape al))).
    f_equal. rewrite map_map. now rewrite <- (known_shapes st s cs al (fun s0 => nth k s0 0) K). }
  rewrite <- EJ. destruct (sizable J) eqn:Sz; [|easy]. cbn [negb] in E. injection E as <-.
  set (items := map (item (mem s) (a_dt a) (fun x => x)) (a :: al)).
  assert (Po : Forall (part_ok k (c_shape c)) items).
  { unfold items. rewrite Forall_map. apply Forall_forall. intros b I.
    assert (Q : (length (a_shape b) =? length (c_shape c))%nat && list_eqb (remove k (a_shape b)) (remove k (c_shape c)) = true).
    { destruct I as [<-|I]; [now rewrite Sh, Nat.eqb_refl, list_eqb_refl|]. rewrite forallb_forall in Fb. now apply Fb. }
    apply andb_true_iff in Q as [Q1 Q2]. apply Nat.eqb_eq in Q1. apply list_eqb_eq in Q2.
    destruct (known_in st s (c :: cs) (a :: al) (Forall2_cons _ _ Kc K) b I) as (cb & Kb). destruct (item_fit _ _ _ _ (a_dt a) Kb) as [Q3 Q4].
    unfold part_ok, item. cbn [fst snd]. split; [easy|]. split; [easy|]. split; [lia|]. easy. }
  destruct (joined k (c_shape c) items J Po) as (NJ & LJ & W & Len & B).
  - cbn. exact Sh.
  - unfold items. rewrite map_map. cbn [fst item]. unfold J. cbn [map joined_shape]. rewrite Sh. cbn [sum fold_right]. now rewrite map_map.
  - rewrite <- Dt. eapply good_new with (xs := cat k items); [easy|easy|easy|easy| |].
    + rewrite (slide_ok st s k (a_dt a) (row_major J) (Z.to_nat (size J)) (size J) (c_shape c) R (c :: cs) (a :: al)); auto.
      * fold items. now rewrite W.
      * apply repeat_length.
      * now rewrite EJ, remove_lset.
      * now rewrite row_major_length.
      * pose proof (size_nonneg _ NJ). lia.
      * intros x I. apply B. unfold items. rewrite map_map. exact I.
    + left. unfold items. cbn [item]. easy.
Qed.

(** *** stack *)
Lemma nth_insert k x : forall sh, (k <= length sh)%nat -> nth k (insert k x sh) 0 = x.
Proof. induction k as [|k IH]; intros [|n sh] L; cbn in *; try easy; try lia. apply IH. lia. Qed.
Lemma remove_insert k x : forall sh, (k <= length sh)%nat -> remove k (insert k x sh) = sh.
Proof. induction k as [|k IH]; intros [|n sh] L; cbn in *; try easy; try lia. now rewrite IH by lia. Qed.
Lemma lset_insert k x y : forall sh, (k <= length sh)%nat -> lset (insert k x sh) k y = insert k y sh.
Proof. induction k as [|k IH]; intros [|n sh] L; cbn in *; try easy; try lia. now rewrite IH by lia. Qed.
Lemma insert_length k x : forall sh, (k <= length sh)%nat -> length (insert k x sh) = Datatypes.S (length sh).
Proof. induction k as [|k IH]; intros [|n sh] L; cbn in *; try easy; try lia. now rewrite IH by lia. Qed.
Lemma insert_size k : forall sh, size (insert k 1 sh) = size sh.
Proof. induction k as [|k IH]; intros [|n sh]; cbn [insert]; rewrite ?size_cons; try easy; try lia; now rewrite IH. Qed.
Lemma insert_nonneg k x : forall sh, 0 <= x -> nonneg sh -> nonneg (insert k x sh).
Proof. unfold nonneg. induction k as [|k IH]; intros [|n sh] Hx N; cbn [insert]; try (constructor; easy). inversion N; subst. constructor; auto. Qed.
Lemma remove_cut k : forall l, (k < length l)%nat -> firstn k l ++ skipn (Datatypes.S k) l = remove k l.
Proof. induction k as [|k IH]; intros [|n l] L; cbn in *; try easy; try lia. now rewrite <- IH by lia. Qed.
Lemma remove_length k : forall l, (k < length l)%nat -> Datatypes.S (length (remove k l)) = length l.
Proof. induction k as [|k IH]; intros [|n l] L; cbn in *; try easy; try lia. rewrite IH; lia. Qed.

Lemma stack_ok st s axis d sh stJ w0 n (k := Z.to_nat axis) (bl := blks (m_heap st)) r : rel st s -> raw r = Some (length bl, 0) -> c_dt r = d ->
  0 <= axis -> (k <= length sh)%nat -> length stJ = Datatypes.S (length sh) -> (axis = 0 -> remove 0 stJ = row_major sh) -> n = size sh ->
  forall cs al, Forall2 (known st s) cs al ->
  forall i w, length w = w0 -> Forall (fun a => a_shape a = sh) al ->
  (forall x, In x (flat_map snd (regions k (i * nth k stJ 0) stJ (map (fun a => insert k 1 (a_shape a)) al))) -> 0 <= x < Z.of_nat w0) ->
  stack_fill axis i r (nth k stJ 0) (remove k stJ) sh n cs (bl ++ [Some w]) =
  Ok (bl ++ [Some (wputs w (flat_map snd (zipped k (i * nth k stJ 0) stJ (map (item (mem s) d (insert k 1)) al))))]).
Proof.
  intros R Er Dr Ha Lk Ls Rm En cs al F. induction F as [|c a cs al [[p C] D] F IH]; intros i w Lw Sa B; [easy|].
  pose proof (Forall_inv Sa) as Sh. pose proof (Forall_inv_tail Sa) as Sa'. cbv beta in Sh. pose proof (cr_sh _ _ _ D) as Sc. assert (Ec : c_shape c = sh) by congruence. clear Sc.
  cbn [stack_fill map zipped flat_map regions item] in *. rewrite Sh in *. rewrite (nth_insert k 1) in * by easy.
  rewrite offs_insert in * by lia.
  assert (Bo : forall x, In x (offs (i * nth k stJ 0) (c_shape c) (remove k stJ)) -> 0 <= x < Z.of_nat (length w)) by (intros x I; rewrite Lw; apply B; rewrite Ec in I; apply in_or_app; now left).
  assert (Lt : length (remove k stJ) = length (c_shape c)) by (rewrite Ec; pose proof (remove_length k stJ ltac:(lia)); lia).
  rewrite Er, Dr. cbn [padd]. rewrite Z.add_0_l.
  set (w1 := wputs w (combine (offs (i * nth k stJ 0) sh (remove k stJ)) (map (convert (a_dt a) d) (values (mem s) a)))).
  assert (As : (if is_contiguous c && (axis =? 0) then assign_flat (c_dt c) d (Some (length bl, i * nth k stJ 0)) (raw c) n (bl ++ [Some w])
      else assign (c_dt c) d (Some (length bl, i * nth k stJ 0)) (raw c) (remove k stJ) (c_strides c) sh (bl ++ [Some w])) = Ok (bl ++ [Some w1])).
  { unfold w1. rewrite En, <- Ec. destruct (is_contiguous c && (axis =? 0)) eqn:Ct.
    - apply andb_true_iff in Ct as [C1 C2]. apply Z.eqb_eq in C2. apply (region_flat _ _ _ _ _ _ _ _ _ R C D Lt Bo C1). intros _. rewrite Ec, <- Rm by easy. unfold k. now rewrite C2.
    - apply (region_strided _ _ _ _ _ _ _ _ _ R C D Lt Bo). intros E0. rewrite (contig_scalar _ _ _ D E0) in Ct. rewrite Ec in E0. rewrite E0 in Lk. cbn [length] in Lk.
      destruct (Z.eqb_spec axis 0); [easy|]. unfold k in Lk. lia. }
  rewrite As. cbn [bind]. rewrite IH; [|unfold w1; now rewrite wputs_length|easy|].
  - rewrite wputs_app. fold w1. replace (i * nth k stJ 0 + 1 * nth k stJ 0) with ((i + 1) * nth k stJ 0) by lia. easy.
  - intros x I. apply B. apply in_or_app. right. replace (i * nth k stJ 0 + 1 * nth k stJ 0) with ((i + 1) * nth k stJ 0) by lia. exact I.
Qed.
Lemma sum_ones {A} (f : A -> Z) l : (forall x, In x l -> f x = 1) -> sum (map f l) = Z.of_nat (length l).
Proof.
  induction l as [|x l IH]; intros H; [easy|]. cbn [map length]. change (sum (f x :: map f l)) with (f x + sum (map f l)). rewrite IH by (intros; apply H; now right). rewrite H by now left. lia.
Qed.
Lemma ok_stack st s v ws axis l : rel st s -> free s v = true -> meaning (Stack v ws axis) s = Some l -> good (step (Stack v ws axis) st) s l.
Proof.
  intros R F E. unfold meaning, with_free in E. rewrite F in E. apply with_arrs_inv in E as (al & Fw & E).
  destruct (handles_known _ _ R _ _ Fw) as (ps & cs & Hh & Hg & K). cbn [step]. rewrite Hh. cbn [bind]. unfold stack. rewrite Hg. cbn [bind].
  destruct K as [|c a cs al Kc K]; [injection E as <-; apply good_raise; auto; now left|].
  assert (Sh : a_shape a = c_shape c) by (destruct Kc as [_ D]; apply (cr_sh _ _ _ D)).
  assert (Dt : a_dt a = c_dt c) by (destruct Kc as [_ D]; apply (cr_dt _ _ _ D)).
  assert (Nn : nonneg (c_shape c)) by (destruct Kc as [_ D]; apply (crel_nonneg _ _ _ D)).
  assert (Sn : sizable (c_shape c) = true) by (destruct Kc as [_ D]; apply (cr_sz _ _ _ D)).
  rewrite Sh in E. pose proof (norm_index (Z.of_nat (length (c_shape c)) + 1) axis) as Nm. unfold raise_if, unless in E.
  assert (Tst : forallb (fun c0 => same_shape (c_shape c) (c_shape c0)) (c :: cs) = forallb (fun b => list_eqb (a_shape b) (c_shape c)) (a :: al)).
  { rewrite (known_test st s (c :: cs) (a :: al) (fun x => same_shape (c_shape c) x)) by now constructor. 
    clear. induction (a :: al) as [|b t IH]; [easy|]. cbn [forallb]. rewrite IH. unfold same_shape. now rewrite list_eqb_sym. }
  rewrite Tst. destruct (norm (Z.of_nat (length (c_shape c)) + 1) axis) as [j|].
  2:{ injection E as <-. apply negb_true_iff, andb_false_iff in Nm. rewrite Z.leb_gt, Z.ltb_ge in Nm.
      destruct (negb _); [apply good_raise; auto; now left|].
      destruct (Z.ltb_spec (index_correction axis (Z.of_nat (length (c_shape c)) + 1)) 0); [apply good_raise; auto; now left|].
      destruct (Z.leb_spec (Z.of_nat (length (c_shape c)) + 1) (index_correction axis (Z.of_nat (length (c_shape c)) + 1))); [apply good_raise; auto; now left|lia]. }
  destruct Nm as [-> Hj]. destruct (forallb _ (a :: al)) eqn:Fb; [|injection E as <-; apply good_raise; auto; now left]. cbn [negb] in *.
  destruct (Z.ltb_spec j 0); [lia|]. destruct (Z.leb_spec (Z.of_nat (length (c_shape c)) + 1) j); [lia|]. cbn [orb].
  set (k := Z.to_nat j) in *. assert (Lk : (k <= length (c_shape c))%nat) by lia.
  assert (Ll : length (c :: cs) = length (a :: al)) by (cbn [length]; f_equal; eapply Forall2_len; eauto).
  rewrite <- insert_cut by easy. rewrite Ll. set (J := insert k (Z.of_nat (length (a :: al))) (c_shape c)) in *.
  destruct (sizable J) eqn:Sz; [|easy]. cbn [negb] in E. injection E as <-.
  set (items := map (item (mem s) (a_dt a) (insert k 1)) (a :: al)).
  assert (Sa : Forall (fun b => a_shape b = c_shape c) (a :: al)).
  { apply Forall_forall. intros b I. rewrite forallb_forall in Fb. now apply list_eqb_eq, Fb. }
  assert (Po : Forall (part_ok k (insert k 1 (c_shape c))) items).
  { unfold items. rewrite Forall_map. apply Forall_forall. intros b I. rewrite Forall_forall in Sa. specialize (Sa b I).
    destruct (known_in st s (c :: cs) (a :: al) (Forall2_cons _ _ Kc K) b I) as (cb & Kb). destruct (item_fit _ _ _ _ (a_dt a) Kb) as [Q3 Q4].
    unfold part_ok, item. cbn [fst snd]. rewrite Q3, Sa, insert_size, insert_length by easy. split; [apply insert_nonneg; [lia|easy]|]. split; [easy|]. split; [lia|]. easy. }
  assert (EJ : J = lset (insert k 1 (c_shape c)) k (sum (map (fun p => nth k (fst p) 0) items))).
  { unfold items. rewrite map_map. rewrite sum_ones.
    - unfold J. now rewrite lset_insert.
    - intros b I. rewrite Forall_forall in Sa. cbn [item fst]. rewrite (Sa b I). now apply nth_insert. }
  destruct (joined k (insert k 1 (c_shape c)) items J Po) as (NJ & LJ & W & Len & B); [cbn; now rewrite Sh|easy|].
  rewrite insert_length in LJ by easy.
  rewrite <- Dt. eapply good_new with (xs := cat k items); [easy|easy|easy|easy| |].
  - cbn [c_strides]. unfold rd. rewrite (nth_error_nth' _ 0) by (rewrite row_major_length; lia). cbn [bind].
    rewrite remove_cut by (rewrite row_major_length; lia). rewrite item_num_eq by easy.
    rewrite (stack_ok st s j (a_dt a) (c_shape c) (row_major J) (Z.to_nat (size J)) (size (c_shape c)) _ R) with (cs := c :: cs) (al := a :: al); try easy.
    + fold k. fold items. rewrite Z.mul_0_l. now rewrite W.
    + rewrite row_major_length. lia.
    + intros ->. unfold k in *. cbn [Z.to_nat] in *. unfold J. cbn [insert row_major remove]. now destruct (c_shape c).
    + now constructor.
    + apply repeat_length.
    + fold k. intros x I. pose proof (size_nonneg _ NJ). rewrite Z2Nat.id by easy. rewrite Z.mul_0_l in I. apply B. unfold items. rewrite map_map. exact I.
  - left. unfold items, J. cbn [item]. easy.
Qed.
