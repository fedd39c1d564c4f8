(** The operations one by one: assignments to elements, sub-arrays and slices. *)
From Verif Require Import Base ListAux NdSpec NdModel NdAux NdMem NdInv NdProofs NdFill NdShow.
From Coq Require Import Permutation.
Local Open Scope Z_scope.

Lemma disjoint_not a b : disjoint a b = true -> forall x, In x a -> ~ In x b.
Proof.
  unfold disjoint. rewrite forallb_forall. intros H x I J. specialize (H x I). apply negb_true_iff in H. apply Bool.not_true_iff_false in H. apply H.
  apply existsb_exists. exists x. split; [easy|]. now rewrite Nat.eqb_refl, Z.eqb_refl.
Qed.
Lemma position_onto sh j : nonneg sh -> 0 <= j < size sh -> exists idx, In idx (indices sh) /\ position sh idx = j.
Proof.
  intros N B. apply in_zrange in B. rewrite <- map_position in B by easy. apply in_map_iff in B as (idx & <- & I). eauto.
Qed.
Lemma row_major_product sh : sh <> [] -> first_product sh (row_major sh) = Ok (size sh).
Proof. destruct sh as [|n sh]; [easy|]. intros _. cbn [first_product row_major]. now rewrite size_cons. Qed.

(** A copy from cells that are not written: both ways of copying. *)
Lemma copy_ok from to m bl sh st ast cells pd ps src (sc : list Z -> nat * Z) (scontig : bool) : memrel m bl -> sizable sh = true -> sh <> [] ->
  covers pd sh st ast cells -> (forall x, In x cells -> inb m x /\ alive bl (fst x)) ->
  length src = length sh -> (scontig = true -> size sh <> 0 -> src = row_major sh) ->
  (forall idx, In idx (indices sh) -> padd ps (dot idx src) = Some (sc idx) /\ inb m (sc idx) /\ alive bl (fst (sc idx)) /\ ~ In (sc idx) cells) ->
  exists bl', (if is_contig sh st && scontig then let! n := first_product sh st in assign_flat from to pd ps n bl
               else assign from to pd ps st src sh bl) = Ok bl' /\
    memrel (puts m cells (map (fun idx => convert from to (value m (sc idx))) (indices sh))) bl' /\ same_life bl bl'.
Proof.
  intros M Sz Ne (L1 & L2 & N & E0 & E1) Hc Ls Sc Hs.
  assert (K : exists bl', for_each (indices sh) (fun idx m => let! x := load m (padd ps (dot idx src)) in store m (padd pd (dot idx st)) (conv from to x)) bl = Ok bl' /\
    memrel (puts m cells (map (fun idx => convert from to (value m (sc idx))) (indices sh))) bl' /\ same_life bl bl').
  { destruct (Z.eq_dec (size sh) 0) as [Z0|Z0].
    - rewrite indices_nil, E0 by easy. exists bl. split; [easy|]. split; [easy|apply same_life_refl].
    - destruct (E1 Z0) as (b & o & -> & -> & Ec). rewrite offs_indices, map_map in Ec by easy.
      rewrite Ec in *. clear E0 E1.
      destruct (set_each (fun idx m => let! x := load m (padd ps (dot idx src)) in Ok (conv from to x)) (fun idx => convert from to (value m (sc idx)))
         (fun idx => (b, o + dot idx st)) (indices sh) m bl m) as (bl' & F & R1 & R2); auto.
      + intros x I. apply Hc. apply in_map_iff. eauto.
      + intros idx m' bl' I M' SL Len V. destruct (Hs idx I) as (-> & Ib & Al & Nin). destruct (sc idx) as [b' o'] eqn:Es.
        rewrite (load_rel m' bl' b' o'); [|easy|now apply SL|unfold inb in *; cbn [fst snd] in *; now rewrite Len].
        cbn [bind]. rewrite V; [now rewrite conv_convert|apply Ib|easy].
      + exists bl'. split; [|easy]. rewrite <- F. apply for_each_ext. intros idx m' I. now rewrite bind_assoc. }
  destruct (is_contig sh st && scontig) eqn:Ct.
  - apply andb_true_iff in Ct as [Ct ->]. rewrite is_contig_eq in Ct by easy. apply list_eqb_eq in Ct. subst st. rewrite row_major_product by easy. cbn [bind].
    unfold assign_flat, copy_elements. destruct (Z.eq_dec (size sh) 0) as [Z0|Z0].
    { rewrite Z0, indices_nil in * by easy. change (0 <? 0) with false. rewrite andb_false_r. cbn [andb]. exact K. }
    rewrite (Sc eq_refl Z0) in *. destruct (E1 Z0) as (b & o & -> & -> & Ec).
    assert (Ov : overlap (Some (b, o)) ps (size sh) = false).
    { destruct ps as [[b' o']|]; [|easy]. cbn [overlap]. destruct (Nat.eqb_spec b b') as [<-|]; [|easy]. cbn [andb].
      destruct (Z.ltb_spec o (o' + size sh)) as [H1|]; [|easy]. cbn [andb]. destruct (Z.ltb_spec o' (o + size sh)) as [H2|]; [|easy]. exfalso.
      set (k := Z.max o o'). destruct (position_onto sh (k - o') N ltac:(lia)) as (idx & I & P). destruct (Hs idx I) as (Q & _ & _ & Nin).
      rewrite dot_row_major, P in Q by now apply indices_len_in. cbn [padd] in Q. injection Q as Q. apply Nin. rewrite <- Q, Ec.
      destruct (position_onto sh (k - o) N ltac:(lia)) as (idx' & I' & P').
      apply in_map_iff. exists (o' + (k - o')). split; [easy|]. rewrite offs_indices by easy. apply in_map_iff. exists idx'. split; [|easy].
      rewrite dot_row_major by now apply indices_len_in. lia. }
    rewrite Ov, andb_false_r. rewrite flat_loop by easy. exact K.
  - rewrite assign_loop by easy. exact K.
Qed.

Lemma covers_alive st s p c a cells : rel st s -> cont_at (m_heap st) p c -> crel (mem s) c a -> incl cells (a_cells a) ->
  forall x, In x cells -> inb (mem s) x /\ alive (blks (m_heap st)) (fst x).
Proof.
  intros R C D Inc x I. apply Inc in I. split.
  - pose proof (cr_inb _ _ _ D) as F. rewrite Forall_forall in F. now apply F.
  - rewrite (cells_at _ _ _ D) in I. apply in_map_iff in I as (idx & <- & J). destruct (cell_ptr _ _ _ _ D J) as (_ & _ & B). eapply src_alive; eauto.
Qed.
Definition set_result (st : mstate) (s : state) (r : res (list (option (list (option Z))))) cells xs (ok : bool) : Prop :=
  if ok then exists bl, r = Ok bl /\ memrel (puts (mem s) cells xs) bl /\ same_life (blks (m_heap st)) bl
  else exists e, r = Exn e.
(** From an array *)
Lemma set_from_array_ok st s p c a q cs b sh st' ast cells pd : rel st s -> cont_at (m_heap st) p c -> crel (mem s) c a ->
  cont_at (m_heap st) q cs -> crel (mem s) cs b -> sizable sh = true -> (sh <> [] \/ c_shape cs <> []) -> covers pd sh st' ast cells -> incl cells (a_cells a) ->
  (forall x, In x cells -> ~ In x (a_cells b)) ->
  set_result st s (set_from_array (blks (m_heap st)) (c_dt c) pd sh st' cs) cells (map (convert (a_dt b) (a_dt a)) (values (mem s) b))
    (list_eqb sh (a_shape b)).
Proof.
  intros R C D C' D' Sz Ne CV Inc Dis. unfold set_from_array. rewrite (cr_sh _ _ _ D').
  destruct (list_eqb sh (c_shape cs)) eqn:Q; cbn [negb set_result].
  - apply list_eqb_eq in Q. rewrite Q, Nat.eqb_refl. cbn [negb]. rewrite <- Q.
    assert (Ne' : sh <> []) by (destruct Ne as [|Ne]; [easy|now rewrite Q]).
    destruct (copy_ok (c_dt cs) (c_dt c) (mem s) (blks (m_heap st)) sh st' ast cells pd (raw cs) (c_strides cs) (cell_at cs) (is_contiguous cs)) as (bl & E & M & SL); auto.
    + apply (r_mem _ _ R).
    + exact (covers_alive _ _ _ _ _ _ R C D Inc).
    + rewrite Q. apply (cr_len _ _ _ D').
    + intros Ct Z0. rewrite Q. apply (contig_true _ _ _ D' Ct). now rewrite <- Q.
    + intros idx I. rewrite Q in I. destruct (cell_ptr _ _ _ _ D' I) as (E1 & E2 & E3). split; [easy|]. split; [easy|]. split; [eapply src_alive; eauto|].
      intros J. apply Dis in J. apply J. rewrite (cells_at _ _ _ D'). now apply in_map.
    + exists bl. split; [exact E|]. split; [|easy]. rewrite (values_at _ _ _ D'), map_map, (cr_dt _ _ _ D'), (cr_dt _ _ _ D), <- Q. exact M.
  - destruct (negb _); eauto.
Qed.
(** From a list *)
Lemma puts_app cs : forall m xs (ys : list Z), (forall c, In c cs -> (fst c < length m)%nat) -> puts (m ++ [ys]) cs xs = puts m cs xs ++ [ys].
Proof.
  induction cs as [|[b o] cs IH]; intros m xs ys H; [easy|]. destruct xs as [|x xs]; [easy|]. cbn [puts].
  assert (B : (b < length m)%nat) by (apply (H (b, o)); now left).
  replace (put (m ++ [ys]) (b, o) x) with (put m (b, o) x ++ [ys]).
  - apply IH. intros c I. rewrite put_length. apply H. now right.
  - unfold put. cbn [fst snd]. rewrite app_nth1 by easy. clear - B. revert b B. induction m as [|y m IH]; intros [|b] B; cbn in *; try lia; [easy|].
    f_equal. specialize (IH b ltac:(lia)). exact IH.
Qed.
Lemma nth_error_Some_lt {A} (l : list A) n x : nth_error l n = Some x -> (n < length l)%nat.
Proof. intros H. apply nth_error_Some. congruence. Qed.
Lemma puts_length cs : forall m xs, length (puts m cs xs) = length m.
Proof. induction cs as [|c cs IH]; intros m [|x xs]; try easy. cbn [puts]. now rewrite IH, put_length. Qed.
Lemma memrel_firstn n m bl : memrel m bl -> memrel (firstn n m) (firstn n bl).
Proof. unfold memrel. intros M. revert n. induction M as [|x y m bl H M IH]; intros [|n]; cbn [firstn]; try apply Forall2_nil. apply Forall2_cons; [exact H|apply IH]. Qed.
Lemma nth_error_firstn {A} (l : list A) n k : nth_error (firstn n l) k = if (k <? n)%nat then nth_error l k else None.
Proof.
  revert n k; induction l as [|x l IH]; intros [|n] [|k]; try easy.
  - cbn [firstn]. now destruct (_ <? _)%nat.
  - cbn [firstn nth_error]. rewrite IH. easy.
Qed.
Lemma set_from_list_ok st s p c a sh st' ast cells pd l : rel st s -> cont_at (m_heap st) p c -> crel (mem s) c a ->
  sizable sh = true -> sizable (first_shape (Node l)) = true -> covers pd sh st' ast cells -> incl cells (a_cells a) ->
  set_result st s (set_from_list (blks (m_heap st)) (c_dt c) pd sh st' l) cells (map (convert I64 (a_dt a)) (flat_map leaves l))
    (match shape_of (Node l) with Some sh' => list_eqb sh sh' | None => false end).
Proof.
  intros R C D Sz Sl CV Inc. unfold set_from_list, shape_of. destruct (first_dims (Node l)) as [lsh|] eqn:Fd.
  2:{ rewrite first_dims_none by easy. cbn. eauto. }
  assert (Nel : lsh <> []).
  { intros ->. cbn [first_dims] in Fd. destruct l as [|t l]; [easy|]. destruct (first_dims t); easy. }
  apply first_dims_some in Fd. rewrite <- Fd in *. pose proof (sizable_nonneg _ Sl) as Nl. rewrite item_num_eq by easy.
  destruct (flatten_ok (c_dt c) (Node l) lsh Nl) as (F1 & F2 & F3 & F4).
  destruct (flatten (c_dt c) lsh (Node l)) as [ok xs]. cbn [fst snd] in *. subst ok.
  destruct (Z.gtb_spec (Z.of_nat (length xs)) (size lsh)); [lia|].
  destruct (has_shape lsh (Node l)); cbn [negb]; [|cbn; eauto].
  destruct (list_eqb sh lsh) eqn:Q; cbn [negb set_result].
  2:{ destruct (negb _); eauto. }
  apply list_eqb_eq in Q. clear Fd. subst lsh. rewrite Nat.eqb_refl. cbn [negb]. specialize (F2 eq_refl). specialize (F4 eq_refl). cbn [leaves] in *.
  rewrite <- (cr_dt _ _ _ D) in *. rewrite <- F2.
  assert (Lx : length xs = Z.to_nat (size sh)) by (rewrite F2, map_length; lia).
  pose proof (memrel_length _ _ (r_mem _ _ R)) as Lm. pose proof (covers_alive _ _ _ _ _ _ R C D Inc) as AL.
  rewrite gen_strides_eq by easy.
  destruct (copy_ok (a_dt a) (a_dt a) (mem s ++ [xs]) (blks (m_heap st) ++ [Some (map Some xs)]) sh st' ast cells pd
     (Some (length (blks (m_heap st)), 0)) (row_major sh) (fun idx => (length (mem s), position sh idx)) true) as (bl & E & M & SL); auto.
  - apply memrel_app, (r_mem _ _ R).
  - intros x I. destruct (AL x I) as [I1 I2]. split; [now apply inb_app|]. destruct I2 as [y Y]. exists y. now apply nth_app_l.
  - apply row_major_length.
  - intros idx I. pose proof (position_range _ _ Nl I) as B. cbn [padd]. rewrite dot_row_major by now apply indices_len_in. split; [now rewrite Z.add_0_l, Lm|].
    split; [apply inb_new; lia|]. split; [exists (map Some xs); cbn [fst]; rewrite Lm; apply nth_app_here|].
    intros J. destruct (AL _ J) as [_ [y Y]]. cbn [fst] in Y. apply nth_error_Some_lt in Y. lia.
  - rewrite andb_true_r in E. rewrite E. cbn [bind]. exists (firstn (length (blks (m_heap st))) bl). split; [easy|].
    assert (Len : length bl = Datatypes.S (length (blks (m_heap st)))) by (rewrite <- (proj1 SL), app_length; cbn; lia).
    split.
    + rewrite puts_app in M.
      2:{ intros x I. destruct (AL x I) as [_ [y Y]]. apply nth_error_Some_lt in Y. lia. }
      apply (memrel_firstn (length (blks (m_heap st)))) in M. rewrite <- Lm in M at 1. 
      rewrite <- (puts_length cells (mem s) (map (fun idx => convert (a_dt a) (a_dt a) (value (mem s ++ [xs]) (length (mem s), position sh idx))) (indices sh))) in M at 1.
      rewrite firstn_app, Nat.sub_diag, firstn_all, firstn_O, app_nil_r in M.
      replace (map _ (indices sh)) with xs in M; [exact M|]. 
      rewrite (map_ext_in _ (fun idx => nth (Z.to_nat (position sh idx)) xs 0)).
      * rewrite <- map_map with (f := position sh) (g := fun i => nth (Z.to_nat i) xs 0). rewrite map_position by easy.
        symmetry. apply map_nth_zrange. pose proof (size_nonneg _ Nl); lia.
      * intros idx I. rewrite convert_same. unfold value. cbn [fst snd]. now rewrite nth_middle.
    + split; [rewrite firstn_length; lia|]. intros b. unfold alive. rewrite nth_error_firstn. split; intros [y Y].
      * pose proof (nth_error_Some_lt _ _ _ Y) as B. destruct (Nat.ltb_spec b (length (blks (m_heap st)))); [|lia].
        apply SL. exists y. now apply nth_app_l.
      * destruct (Nat.ltb_spec b (length (blks (m_heap st)))) as [B|]; [|easy]. assert (A : alive bl b) by (now exists y). apply SL in A. destruct A as [z Zz]. rewrite nth_error_app1 in Zz by easy. eauto.
Qed.

Lemma good_raise_changed st s e l : In Raise l -> good (changed st (Exn e)) s l.
Proof. intros I. exact I. Qed.
Lemma good_result st s r cells xs ok (l : list outcome) : rel st s -> set_result st s r cells xs ok ->
  (ok = true -> In (Write cells xs) l) -> (ok = false -> In Raise l) ->
  good (changed st (let! m := r in Ok (Heap (conts (m_heap st)) m))) s l.
Proof.
  intros R S H1 H2. destruct ok; cbn [set_result] in S.
  - destruct S as (bl & -> & M & SL). cbn [bind]. eapply good_write; eauto.
  - destruct S as [e ->]. now apply good_raise_changed, H2.
Qed.
Lemma ok_set_num st s v a p is x l : rel st s -> holds s v = Some a -> handle st v = Ok p ->
  meaning (SetNum v is x) s = Some l -> good (changed st (set_number (m_heap st) p is x)) s l.
Proof.
  intros R H Hp E. destruct (rel_holds _ _ _ _ R H) as (p' & c & _ & Hp' & C & D). assert (p' = p) by congruence. subst p'.
  unfold meaning, with_arr, raise_if in E. rewrite H in E. rewrite (cr_sh _ _ _ D), (cr_dt _ _ _ D) in E.
  unfold set_number, hget. rewrite C. cbn [bind].
  destruct (Nat.eqb_spec (length is) (length (c_shape c))) as [L|L]; cbn [negb] in *.
  2:{ injection E as <-. apply good_raise_changed. now left. }
  pose proof (descend_pick is _ _ _ _ _ (crel_covers _ _ _ D) ltac:(lia)) as P.
  destruct (pick (c_shape c) (a_strides a) (a_cells a) is) as [[[sh' ast'] cells']|].
  2:{ injection E as <-. rewrite P. apply good_raise_changed. now left. }
  destruct P as (st' & k & -> & Esh & Inc & CV). cbn [bind]. injection E as <-.
  assert (E0 : sh' = []) by (rewrite Esh; apply skipn_all2; lia). clear Esh. subst sh'.
  destruct CV as (L1 & L2 & N & E0 & E1). destruct (E1 ltac:(easy)) as (b & o & Pq & _ & ->). cbn [offs map] in *.
  destruct (covers_alive _ _ _ _ _ _ R C D Inc (b, o) (or_introl eq_refl)) as [Ib Al]. cbn [fst] in Al. rewrite Pq, conv_convert.
  destruct (store_rel (mem s) (blks (m_heap st)) b o (convert I64 (c_dt c) x) (r_mem _ _ R) Al Ib) as (bl & -> & M & SL). cbn [bind].
  eapply good_write; [exact R| |exact SL|now left]. cbn [puts]. exact M.
Qed.
Lemma ok_set_array st s v a p is w b q l : rel st s -> holds s v = Some a -> handle st v = Ok p -> holds s w = Some b -> handle st w = Ok q ->
  meaning (SetArr v is w) s = Some l -> good (changed st (set_array (m_heap st) p is q)) s l.
Proof.
  intros R H Hp H' Hq E. destruct (rel_holds _ _ _ _ R H) as (p' & c & _ & Hp' & C & D). assert (p' = p) by congruence. subst p'.
  destruct (rel_holds _ _ _ _ R H') as (q' & c' & _ & Hq' & C' & D'). assert (q' = q) by congruence. subst q'.
  unfold meaning, with_arr, unless in E. rewrite H, H' in E. rewrite (cr_sh _ _ _ D) in E.
  unfold set_array, hget. rewrite C. cbn [bind]. rewrite C'. cbn [bind].
  destruct (Nat.ltb_spec (length (c_shape c)) (length is)) as [|L]; [easy|].
  pose proof (descend_pick is _ _ _ _ _ (crel_covers _ _ _ D) L) as P.
  destruct (pick (c_shape c) (a_strides a) (a_cells a) is) as [[[sh' ast'] cells']|].
  2:{ injection E as <-. rewrite P. apply good_raise_changed. now left. }
  destruct P as (st' & k & -> & Esh & Inc & CV). cbn [bind].
  destruct (negb (nonempty sh') && negb (nonempty (a_shape b))) eqn:Ne; [easy|]. cbn [orb] in E.
  destruct (disjoint cells' (a_cells b)) eqn:Dj; [|easy]. cbn [negb] in E.
  assert (Sz : sizable sh' = true) by (rewrite Esh; apply sizable_skipn, (cr_sz _ _ _ D)).
  eapply good_result; [exact R|eapply set_from_array_ok; eauto| |].
  - rewrite (cr_sh _ _ _ D') in Ne. destruct sh'; [right; now destruct (c_shape c')|now left].
  - now apply disjoint_not.
  - intros B. unfold assigned in E. rewrite B in E. injection E as <-. now left.
  - intros B. unfold assigned in E. rewrite B in E. injection E as <-. now left.
Qed.
Lemma ok_set_list st s v a p is t l : rel st s -> holds s v = Some a -> handle st v = Ok p ->
  meaning (SetList v is t) s = Some l -> good (changed st (set_list (m_heap st) p is t)) s l.
Proof.
  intros R H Hp E. destruct (rel_holds _ _ _ _ R H) as (p' & c & _ & Hp' & C & D). assert (p' = p) by congruence. subst p'.
  unfold meaning, with_arr, unless in E. rewrite H in E. rewrite (cr_sh _ _ _ D) in E.
  unfold set_list, hget. rewrite C. cbn [bind].
  destruct (Nat.ltb_spec (length (c_shape c)) (length is)) as [|L]; [easy|]. cbn [orb] in E.
  destruct (sizable (first_shape (Node t))) eqn:Sl; [|easy]. cbn [negb] in E.
  pose proof (descend_pick is _ _ _ _ _ (crel_covers _ _ _ D) L) as P.
  destruct (pick (c_shape c) (a_strides a) (a_cells a) is) as [[[sh' ast'] cells']|].
  2:{ injection E as <-. rewrite P. apply good_raise_changed. now left. }
  destruct P as (st' & k & -> & Esh & Inc & CV). cbn [bind].
  assert (Sz : sizable sh' = true) by (rewrite Esh; apply sizable_skipn, (cr_sz _ _ _ D)).
  eapply good_result; [exact R|eapply set_from_list_ok; eauto| |].
  - intros B. destruct (shape_of (Node t)); [|easy]. unfold assigned in E. rewrite B in E. injection E as <-. now left.
  - intros B. destruct (shape_of (Node t)); [|injection E as <-; now left]. unfold assigned in E. rewrite B in E. injection E as <-. now left.
Qed.

(** Slices *)
Lemma slice_covers m c a n sh d st' b e : crel m c a -> c_shape c = n :: sh -> c_strides c = d :: st' -> clamp n b < clamp n e ->
  covers (padd (raw c) (d * clamp n b)) (clamp n e - clamp n b :: sh) (c_strides c) (a_strides a)
    (flat_map (part (size sh) (a_cells a)) (slice_positions n b e 1)) /\
  sizable (clamp n e - clamp n b :: sh) = true /\ slice_positions n b e 1 <> [] /\
  Z.of_nat (length (slice_positions n b e 1)) = clamp n e - clamp n b /\
  incl (flat_map (part (size sh) (a_cells a)) (slice_positions n b e 1)) (a_cells a).
Proof.
  intros D Sh St Lt. pose proof (cr_len _ _ _ D) as L1. pose proof (cr_alen _ _ _ D) as L2. pose proof (crel_nonneg _ _ _ D) as N.
  pose proof (cr_sz _ _ _ D) as Sz. rewrite Sh, ?St in *. inversion N as [|? ? N1 N2]; subst.
  pose proof (clamp_range n b N1) as Cb. pose proof (clamp_range n e N1) as Ce.
  rewrite slice_positions_eq by lia. destruct (Z.leb_spec (clamp n e) (clamp n b)); [lia|].
  replace (clamp n e - clamp n b + 1 - 1) with (clamp n e - clamp n b) by lia. rewrite Z.div_1_r.
  set (q := clamp n e - clamp n b) in *.
  split; [|split; [|split; [|split]]].
  - split; [easy|]. split; [easy|]. split; [now constructor; [lia|]|]. split.
    + intros Z0. assert (Z1 : size sh = 0) by (rewrite size_cons in Z0; nia).
      rewrite Z1. rewrite flat_map_ext_in with (g := fun _ => []); [|easy]. clear. induction (map _ _); easy.
    + intros Z0. assert (Z1 : size sh <> 0) by (rewrite size_cons in Z0; nia).
      pose proof (cr_cells _ _ _ D) as K. rewrite Sh, St in K. destruct K as (b0 & o & K1 & K2 & K3); [rewrite size_cons; nia|].
      exists b0, (o + c_off c + d * clamp n b). unfold raw. rewrite K1. cbn [padd]. split; [easy|]. split; [easy|].
      rewrite K3, offs_parts.
      * cbn [offs]. f_equal. rewrite flat_map_map. apply flat_map_ext. intros i. f_equal. lia.
      * easy.
      * cbn in L1. lia.
      * intros i I. apply in_map_iff in I as [j [<- J]]. apply in_zrange in J. lia.
  - eapply sizable_head; [exact Sz|lia].
  - intros E0. apply (f_equal (@length Z)) in E0. rewrite map_length, zrange_length in E0. cbn in E0. lia.
  - rewrite map_length, zrange_length. lia.
  - intros x I. apply in_flat_map in I as [j [_ J]]. eapply in_part; eauto.
Qed.
Lemma slice_none n b e : 0 <= n -> (clamp n e <=? clamp n b) = true -> slice_positions n b e 1 = [].
Proof. intros N H. rewrite slice_positions_eq by lia. now rewrite H. Qed.
Lemma ok_set_slice st s v a p b e w a' q l : rel st s -> holds s v = Some a -> handle st v = Ok p -> holds s w = Some a' -> handle st w = Ok q ->
  meaning (SetSlice v b e w) s = Some l -> good (changed st (set_slice (m_heap st) p b e q)) s l.
Proof.
  intros R H Hp H' Hq E. destruct (rel_holds _ _ _ _ R H) as (p' & c & _ & Hp' & C & D). assert (p' = p) by congruence. subst p'.
  destruct (rel_holds _ _ _ _ R H') as (q' & c' & _ & Hq' & C' & D'). assert (q' = q) by congruence. subst q'.
  unfold meaning, with_arr, unless in E. rewrite H, H' in E. rewrite (cr_sh _ _ _ D) in E.
  unfold set_slice, hget. rewrite C'. cbn [bind]. unfold set_slice_with, hget. rewrite C. cbn [bind].
  pose proof (crel_nonneg _ _ _ D) as N. pose proof (cr_len _ _ _ D) as L1.
  destruct (c_shape c) as [|n sh] eqn:Sh; [easy|]. inversion N as [|? ? N1 N2]; subst. destruct (c_strides c) as [|d st'] eqn:St; [easy|].
  rewrite !correction_clamp by easy. destruct (clamp n e <=? clamp n b) eqn:Le.
  - rewrite slice_none in E by easy. injection E as <-. apply good_nothing; [easy|now left].
  - apply Z.leb_gt in Le. destruct (slice_covers _ _ _ n sh d st' b e D Sh St Le) as (CV & Sz & Ne & Ln & Inc). rewrite <- St, <- Ln in *.
    destruct (slice_positions n b e 1) as [|i ps]; [easy|]. set (cs := flat_map _ (i :: ps)) in *.
    destruct (disjoint cs (a_cells a')) eqn:Dj; [|easy]. cbn [negb] in E.
    eapply good_result; [exact R|eapply set_from_array_ok; eauto| |].
    + now left.
    + now apply disjoint_not.
    + intros B. unfold assigned in E. rewrite B in E. injection E as <-. now left.
    + intros B. unfold assigned in E. rewrite B in E. injection E as <-. now left.
Qed.
Lemma ok_set_slice_list st s v a p b e t l : rel st s -> holds s v = Some a -> handle st v = Ok p ->
  meaning (SetSliceList v b e t) s = Some l -> good (changed st (set_slice_list (m_heap st) p b e t)) s l.
Proof.
  intros R H Hp E. destruct (rel_holds _ _ _ _ R H) as (p' & c & _ & Hp' & C & D). assert (p' = p) by congruence. subst p'.
  unfold meaning, with_arr, unless in E. rewrite H in E. rewrite (cr_sh _ _ _ D) in E.
  unfold set_slice_list, set_slice_with, hget. rewrite C. cbn [bind].
  pose proof (crel_nonneg _ _ _ D) as N. pose proof (cr_len _ _ _ D) as L1.
  destruct (c_shape c) as [|n sh] eqn:Sh; [easy|]. inversion N as [|? ? N1 N2]; subst. destruct (c_strides c) as [|d st'] eqn:St; [easy|].
  destruct (sizable (first_shape (Node t))) eqn:Sl; [|easy]. cbn [negb] in E.
  rewrite !correction_clamp by easy. destruct (clamp n e <=? clamp n b) eqn:Le.
  - rewrite slice_none in E by easy. injection E as <-. apply good_nothing; [easy|now left].
  - apply Z.leb_gt in Le. destruct (slice_covers _ _ _ n sh d st' b e D Sh St Le) as (CV & Sz & Ne & Ln & Inc). rewrite <- St, <- Ln in *.
    destruct (slice_positions n b e 1) as [|i ps]; [easy|]. set (cs := flat_map _ (i :: ps)) in *.
    eapply good_result; [exact R|eapply set_from_list_ok; eauto| |].
    + intros B. destruct (shape_of (Node t)); [|easy]. unfold assigned in E. rewrite B in E. injection E as <-. now left.
    + intros B. destruct (shape_of (Node t)); [|injection E as <-; now left]. unfold assigned in E. rewrite B in E. injection E as <-. now left.
Qed.
