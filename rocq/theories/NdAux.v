(** Lists of positions: ranges, parts, offsets of strided arrays, indices. *)
From Verif Require Import Base ListAux NdSpec.
From Coq Require Import Permutation Sorted.
Local Open Scope Z_scope.

(** ** Ranges *)
Lemma in_zrange n i : In i (zrange n) <-> 0 <= i < n.
Proof.
  unfold zrange. rewrite in_map_iff. split.
  - intros [k [E H]]. apply in_seq in H. lia.
  - intros H. exists (Z.to_nat i). split; [lia|]. apply in_seq. lia.
Qed.
Lemma zrange_length n : length (zrange n) = Z.to_nat n.
Proof. unfold zrange. now rewrite map_length, seq_length. Qed.
Lemma zrange_neg n : n <= 0 -> zrange n = [].
Proof. intros H. unfold zrange. now replace (Z.to_nat n) with O by lia. Qed.
Lemma seq_shift_map a b k : seq (a + k) b = map (fun x => (k + x)%nat) (seq a b).
Proof.
  revert a; induction b as [|b IH]; intros a; [easy|]. cbn [seq map].
  rewrite <- (IH (S a)). now rewrite (Nat.add_comm k a).
Qed.
Lemma zrange_app a b : 0 <= a -> 0 <= b -> zrange (a + b) = zrange a ++ map (Z.add a) (zrange b).
Proof.
  intros Ha Hb. unfold zrange. rewrite Z2Nat.inj_add, seq_app, map_app by easy. f_equal.
  rewrite (seq_shift_map 0 (Z.to_nat b) (Z.to_nat a)), !map_map. apply map_ext. intros k. lia.
Qed.
Lemma zrange_nth n i : 0 <= i < n -> nth_error (zrange n) (Z.to_nat i) = Some i.
Proof.
  intros H. unfold zrange. rewrite nth_error_map.
  assert (E : nth_error (seq 0 (Z.to_nat n)) (Z.to_nat i) = Some (Z.to_nat i)).
  { rewrite nth_error_nth' with (d := O) by (rewrite seq_length; lia). rewrite seq_nth by lia. now f_equal; lia. }
  rewrite E. cbn. f_equal. lia.
Qed.
Lemma zrange_nodup n : NoDup (zrange n).
Proof. unfold zrange. apply FinFun.Injective_map_NoDup; [intros a b; lia|apply seq_NoDup]. Qed.
Lemma zrange_S n : 0 <= n -> zrange (n + 1) = zrange n ++ [n].
Proof. intros H. rewrite zrange_app by lia. change (zrange 1) with [0]. cbn [map]. now rewrite Z.add_0_r. Qed.

Lemma flat_map_map {A B C} (f : B -> list C) (g : A -> B) l : flat_map f (map g l) = flat_map (fun x => f (g x)) l.
Proof. induction l; cbn; congruence. Qed.
Lemma map_flat_map {A B C} (f : B -> C) (g : A -> list B) l : map f (flat_map g l) = flat_map (fun x => map f (g x)) l.
Proof. induction l; cbn; [easy|]. rewrite map_app; congruence. Qed.
Lemma flat_map_ext_in {A B} (f g : A -> list B) l : (forall x, In x l -> f x = g x) -> flat_map f l = flat_map g l.
Proof. induction l as [|x l IH]; cbn; intros H; [easy|]. rewrite H, IH; auto. Qed.
Lemma flat_map_flat_map {A B C} (f : B -> list C) (g : A -> list B) l :
  flat_map f (flat_map g l) = flat_map (fun x => flat_map f (g x)) l.
Proof. induction l; cbn; [easy|]. rewrite flat_map_app; congruence. Qed.
Lemma flat_map_len {A B} (f : A -> list B) l k : (forall x, In x l -> length (f x) = k) ->
  length (flat_map f l) = (length l * k)%nat.
Proof. induction l as [|x l IH]; cbn; intros H; [easy|]. rewrite app_length, IH, H; auto. Qed.

Lemma zrange_mul n k : 0 <= n -> 0 <= k -> zrange (n * k) = flat_map (fun i => map (Z.add (i * k)) (zrange k)) (zrange n).
Proof.
  intros Hn Hk. pattern n. apply natlike_ind; [easy| |easy].
  intros x Hx IH. replace (Z.succ x * k) with (x * k + k) by lia. rewrite zrange_app by nia.
  replace (Z.succ x) with (x + 1) by lia. rewrite zrange_S, flat_map_app by easy. cbn. now rewrite app_nil_r, IH.
Qed.

(** ** Sizes *)
Definition nonneg (sh : list Z) := Forall (fun n => 0 <= n) sh.
Lemma size_nonneg sh : nonneg sh -> 0 <= size sh.
Proof. induction 1 as [|n l H F IH]; cbn; [lia|]. change (0 <= n * size l). nia. Qed.
Lemma size_cons n sh : size (n :: sh) = n * size sh. Proof. easy. Qed.
Lemma size_app a b : size (a ++ b) = size a * size b.
Proof. induction a as [|x a IH]; cbn [app]; [change (size []) with 1; lia|]. rewrite !size_cons, IH. lia. Qed.
Lemma sizable_nonneg sh : sizable sh = true -> nonneg sh.
Proof. unfold sizable, nonneg. rewrite andb_true_iff, forallb_forall, Forall_forall. intros [H _] x I. apply Z.leb_le. auto. Qed.
Lemma size_max_ge sh : nonneg sh -> size sh <= size (map (Z.max 1) sh) /\ 1 <= size (map (Z.max 1) sh).
Proof.
  induction 1 as [|n l H F IH]; cbn [map]; [change (size []) with 1; lia|]. rewrite !size_cons.
  pose proof (size_nonneg l F). destruct (Z.max_spec 1 n) as [[? ->]|[? ->]]; nia.
Qed.
Lemma sizable_size sh : sizable sh = true -> 0 <= size sh < two63.
Proof.
  intros S. pose proof (sizable_nonneg _ S) as N. split; [now apply size_nonneg|].
  unfold sizable in S. apply andb_true_iff in S as [_ S]. apply Z.ltb_lt in S. pose proof (size_max_ge _ N). lia.
Qed.
Lemma sizable_tl n sh : sizable (n :: sh) = true -> sizable sh = true.
Proof.
  intros S. pose proof (sizable_nonneg _ S) as N. inversion N as [|? ? N1 N2]; subst. unfold sizable in *.
  cbn [forallb map] in S. rewrite !andb_true_iff in S. destruct S as [[_ S1] S2]. rewrite S1. cbn [andb].
  apply Z.ltb_lt in S2. apply Z.ltb_lt. rewrite size_cons in S2. pose proof (size_max_ge _ N2).
  assert (M : 1 <= Z.max 1 n) by lia. nia.
Qed.
Lemma sizable_alt sh : sizable sh = true <-> nonneg sh /\ size (map (Z.max 1) sh) < two63.
Proof.
  unfold sizable, nonneg. rewrite andb_true_iff, forallb_forall, Forall_forall, Z.ltb_lt.
  split; intros [H1 H2]; (split; [|easy]); intros x I; apply Z.leb_le; auto; now apply H1.
Qed.

(** ** Offsets *)
Fixpoint offs (o : Z) (sh st : list Z) : list Z :=
  match sh with
  | [] => [o]
  | n :: sh => match st with
               | s :: st => flat_map (fun i => offs (o + i * s) sh st) (zrange n)
               | [] => []
               end
  end.
Fixpoint dot (idx st : list Z) : Z :=
  match idx, st with
  | i :: idx, s :: st => i * s + dot idx st
  | _, _ => 0
  end.
Lemma offs_indices sh : forall o st, length st = length sh -> offs o sh st = map (fun idx => o + dot idx st) (indices sh).
Proof.
  induction sh as [|n sh IH]; intros o st L; cbn [offs indices map dot].
  - destruct st; [|easy]. now rewrite Z.add_0_r.
  - destruct st as [|s st]; [easy|]. rewrite map_flat_map. apply flat_map_ext. intros i. rewrite map_map.
    rewrite IH by (cbn in L; lia). apply map_ext. intros idx. cbn [dot]. lia.
Qed.
Lemma indices_length sh : nonneg sh -> length (indices sh) = Z.to_nat (size sh).
Proof.
  induction 1 as [|n l H F IH]; [easy|]. cbn [indices]. rewrite flat_map_len with (k := Z.to_nat (size l)).
  - rewrite zrange_length, size_cons, Z2Nat.inj_mul; auto. now apply size_nonneg.
  - intros x _. now rewrite map_length.
Qed.
Lemma offs_length sh o st : nonneg sh -> length st = length sh -> length (offs o sh st) = Z.to_nat (size sh).
Proof. intros N L. rewrite offs_indices, map_length by easy. now apply indices_length. Qed.
Lemma in_indices sh : forall idx, In idx (indices sh) <-> Forall2 (fun i n => 0 <= i < n) idx sh.
Proof.
  induction sh as [|n sh IH]; intros idx; cbn [indices].
  - split; [intros [<-|[]]; constructor|]. inversion 1. now left.
  - rewrite in_flat_map. split.
    + intros [i [Hi H]]. apply in_map_iff in H as [idx' [<- H]]. constructor; [now apply in_zrange|now apply IH].
    + inversion 1 as [|i ? idx' ? Hi F]; subst. exists i. split; [now apply in_zrange|]. apply in_map. now apply IH.
Qed.
Lemma indices_nil sh : nonneg sh -> size sh = 0 -> indices sh = [].
Proof. intros N S. apply length_zero_iff_nil. rewrite indices_length, S; auto. Qed.
Lemma offs_nil sh o st : nonneg sh -> size sh = 0 -> length st = length sh -> offs o sh st = [].
Proof. intros N S L. apply length_zero_iff_nil. rewrite offs_length, S; auto. Qed.
Lemma row_major_length sh : length (row_major sh) = length sh.
Proof. induction sh; cbn; congruence. Qed.
Lemma offs_row_major sh o : nonneg sh -> offs o sh (row_major sh) = map (Z.add o) (zrange (size sh)).
Proof.
  intros N. revert o; induction N as [|n l H F IH]; intros o; cbn [offs row_major].
  - change (zrange (size [])) with [0]. cbn [map]. now rewrite Z.add_0_r.
  - rewrite size_cons, zrange_mul, map_flat_map by (auto using size_nonneg). apply flat_map_ext. intros i.
    rewrite IH, map_map. apply map_ext. intros k. lia.
Qed.
Lemma dot_row_major sh : forall idx, length idx = length sh -> dot idx (row_major sh) = position sh idx.
Proof.
  induction sh as [|n sh IH]; intros [|i idx] L; try easy. cbn [row_major dot position]. rewrite IH; [easy|]. cbn in L; lia.
Qed.
Lemma indices_len_in sh idx : In idx (indices sh) -> length idx = length sh.
Proof. intros H. apply in_indices in H. induction H; cbn; congruence. Qed.
Lemma map_position sh : nonneg sh -> map (position sh) (indices sh) = zrange (size sh).
Proof.
  intros N. pose proof (offs_row_major sh 0 N) as E. rewrite offs_indices in E by apply row_major_length.
  rewrite map_ext_in with (g := fun idx => 0 + dot idx (row_major sh)).
  - rewrite E. rewrite <- (map_id (zrange (size sh))) at 2. apply map_ext. lia.
  - intros idx H. rewrite dot_row_major; [lia|]. now apply indices_len_in.
Qed.
Lemma position_range sh idx : nonneg sh -> In idx (indices sh) -> 0 <= position sh idx < size sh.
Proof. intros N H. apply in_zrange. rewrite <- map_position by easy. now apply in_map. Qed.
Lemma nth_indices sh idx : nonneg sh -> In idx (indices sh) -> nth_error (indices sh) (Z.to_nat (position sh idx)) = Some idx.
Proof.
  intros N H. apply In_nth_error in H as [k Hk].
  assert (E : nth_error (map (position sh) (indices sh)) k = Some (position sh idx)) by now rewrite nth_error_map, Hk.
  rewrite map_position in E by easy.
  assert (B : (k < Z.to_nat (size sh))%nat).
  { rewrite <- zrange_length. apply nth_error_Some. congruence. }
  pose proof (zrange_nth (size sh) (Z.of_nat k)) as Z. rewrite Nat2Z.id in Z. rewrite Z in E by lia.
  injection E as E. rewrite <- E. now rewrite Nat2Z.id.
Qed.
Lemma at_index_map {A} (d : A) sh f idx : nonneg sh -> In idx (indices sh) -> at_index d sh (map f (indices sh)) idx = f idx.
Proof.
  intros N H. unfold at_index. apply nth_error_nth. rewrite nth_error_map, nth_indices; auto.
Qed.

(** ** Parts *)
Lemma part_flat_map {A} (f : Z -> list A) n k j : 0 <= k -> (forall i, 0 <= i < n -> length (f i) = Z.to_nat k) ->
  0 <= j < n -> part k (flat_map f (zrange n)) j = f j.
Proof.
  intros Hk Hf Hj. unfold part.
  assert (E : zrange n = zrange j ++ j :: map (Z.add (j + 1)) (zrange (n - j - 1))).
  { replace n with ((j + 1) + (n - j - 1)) at 1 by lia. rewrite zrange_app, zrange_S, <- app_assoc by lia. easy. }
  rewrite E, flat_map_app. cbn [flat_map].
  assert (L : length (flat_map f (zrange j)) = Z.to_nat (j * k)).
  { rewrite flat_map_len with (k := Z.to_nat k). - rewrite zrange_length, Z2Nat.inj_mul; lia.
    - intros x Hx. apply in_zrange in Hx. apply Hf. lia. }
  rewrite skipn_app, skipn_all2 by lia. rewrite L, Nat.sub_diag. cbn [app skipn].
  rewrite firstn_app, firstn_all2 by (rewrite Hf; lia). rewrite Hf, Nat.sub_diag by lia. cbn. apply app_nil_r.
Qed.
Lemma part_map {A B} (f : A -> B) n l i : part n (map f l) i = map f (part n l i).
Proof. unfold part. now rewrite skipn_map, firstn_map. Qed.
Lemma part_offs n sh o s st j : nonneg (n :: sh) -> length st = length sh -> 0 <= j < n ->
  part (size sh) (offs o (n :: sh) (s :: st)) j = offs (o + j * s) sh st.
Proof.
  intros N L Hj. inversion N; subst. cbn [offs]. apply part_flat_map with (f := fun i => offs (o + i * s) sh st).
  - now apply size_nonneg.
  - intros i _. now apply offs_length.
  - easy.
Qed.

(** ** Slices *)
Lemma sorted_ext (l l' : list Z) : StronglySorted Z.lt l -> StronglySorted Z.lt l' ->
  (forall x, In x l <-> In x l') -> l = l'.
Proof.
  intros S. revert l'. induction S as [|a l S IH F]; intros l' S' H.
  - destruct l' as [|b l']; [easy|]. exfalso. apply (proj2 (H b)). now left.
  - destruct S' as [|b l' S' F'].
    + exfalso. apply (proj1 (H a)). now left.
    + rewrite Forall_forall in F, F'.
      assert (a = b).
      { destruct (proj1 (H a) (or_introl eq_refl)) as [->|Ia]; [easy|].
        destruct (proj2 (H b) (or_introl eq_refl)) as [->|Ib]; [easy|].
        specialize (F _ Ib). specialize (F' _ Ia). lia. }
      subst b. f_equal. apply IH; [easy|]. intros x. split; intros Hx.
      * destruct (proj1 (H x) (or_intror Hx)) as [->|]; [|easy]. specialize (F _ Hx). lia.
      * destruct (proj2 (H x) (or_intror Hx)) as [->|]; [|easy]. specialize (F' _ Hx). lia.
Qed.
Lemma sorted_map_seq (f : nat -> Z) a k : (forall i j, (i < j)%nat -> f i < f j) -> StronglySorted Z.lt (map f (seq a k)).
Proof.
  intros M. revert a; induction k as [|k IH]; intros a; cbn; constructor; [apply IH|].
  apply Forall_forall. intros x H. apply in_map_iff in H as [y [<- H]]. apply in_seq in H. apply M. lia.
Qed.
Lemma sorted_zrange n : StronglySorted Z.lt (zrange n).
Proof. unfold zrange. apply sorted_map_seq. lia. Qed.
Lemma sorted_filter (p : Z -> bool) l : StronglySorted Z.lt l -> StronglySorted Z.lt (filter p l).
Proof.
  induction 1 as [|a l S IH F]; cbn; [constructor|]. destruct (p a); [|easy]. constructor; [easy|].
  apply Forall_forall. intros x H. apply filter_In in H as [H _]. rewrite Forall_forall in F. auto.
Qed.
Lemma clamp_range n i : 0 <= n -> 0 <= clamp n i <= n.
Proof. unfold clamp. destruct (Z.ltb_spec i 0); lia. Qed.
Lemma slice_positions_eq n b e t : 0 <= n -> 0 < t ->
  slice_positions n b e t =
    if clamp n e <=? clamp n b then []
    else map (fun i => clamp n b + i * t) (zrange ((clamp n e - clamp n b + t - 1) / t)).
Proof.
  intros Hn Ht. pose proof (clamp_range n b Hn) as Bb. pose proof (clamp_range n e Hn) as Be.
  unfold slice_positions. set (B := clamp n b) in *. set (E := clamp n e) in *.
  destruct (Z.leb_spec E B) as [L|L].
  - apply sorted_ext; [apply sorted_filter, sorted_zrange|constructor|]. intros x.
    rewrite filter_In, !andb_true_iff, Z.leb_le, Z.ltb_lt. split; [lia|intros []].
  - set (q := (E - B + t - 1) / t).
    assert (Q : q * t <= E - B + t - 1 < (q + 1) * t).
    { subst q. pose proof (Z.div_mod (E - B + t - 1) t ltac:(lia)). pose proof (Z.mod_pos_bound (E - B + t - 1) t Ht). nia. }
    apply sorted_ext.
    + apply sorted_filter, sorted_zrange.
    + unfold zrange. rewrite map_map. apply sorted_map_seq. intros i j H. nia.
    + intros x. rewrite filter_In, !andb_true_iff, in_zrange, Z.leb_le, Z.ltb_lt, Z.eqb_eq, in_map_iff. split.
      * intros [Hx [[H1 H2] H3]]. exists ((x - B) / t).
        pose proof (Z.div_mod (x - B) t ltac:(lia)) as D. rewrite H3 in D.
        split; [lia|]. apply in_zrange. split; [apply Z.div_pos; lia|]. nia.
      * intros [i [<- H]]. apply in_zrange in H.
        replace (B + i * t - B) with (i * t) by lia. rewrite Z.mod_mul by lia. nia.
Qed.

(** ** Contiguity and list equality *)
Lemma list_eqb_eq a b : list_eqb a b = true <-> a = b.
Proof.
  revert b; induction a as [|x a IH]; intros [|y b]; cbn; try easy.
  rewrite andb_true_iff, Z.eqb_eq, IH. split; [intros []; congruence|]. now inversion 1.
Qed.
Lemma list_eqb_refl a : list_eqb a a = true. Proof. now apply list_eqb_eq. Qed.
Lemma list_eqb_sym a b : list_eqb a b = list_eqb b a.
Proof.
  destruct (list_eqb a b) eqn:E; symmetry.
  - apply list_eqb_eq in E. subst. apply list_eqb_refl.
  - apply not_true_is_false. intros H. apply list_eqb_eq in H. subst. rewrite list_eqb_refl in E. easy.
Qed.

(** ** Transposition *)
Lemma find_map (p idx : list Z) : NoDup p -> length idx = length p -> map (find p idx) p = idx.
Proof.
  intros N. revert idx; induction N as [|a p Ha N IH]; intros [|i idx] L; try easy. cbn [map].
  f_equal.
  - cbn. now rewrite Z.eqb_refl.
  - rewrite <- (IH idx) at 2 by (cbn in L; lia). apply map_ext_in. intros x Hx. cbn.
    destruct (Z.eqb_spec a x); [subst; easy|easy].
Qed.
Lemma dot_map (p : list Z) (f g : Z -> Z) : dot (map f p) (map g p) = sum (map (fun a => f a * g a) p).
Proof. induction p as [|a p IH]; cbn [map dot]; [easy|]. rewrite IH. easy. Qed.
Lemma sum_perm l l' : Permutation l l' -> sum l = sum l'.
Proof. unfold sum. induction 1; cbn [fold_right]; lia. Qed.
Lemma sum_app a b : sum (a ++ b) = sum a + sum b.
Proof. induction a as [|x a IH]; cbn [app]; [easy|]. change (x + sum (a ++ b) = x + sum a + sum b). lia. Qed.
Lemma map_nth_zrange (l : list Z) n : Z.of_nat (length l) = n -> map (fun a => nth (Z.to_nat a) l 0) (zrange n) = l.
Proof.
  intros <-. unfold zrange. rewrite map_map, Nat2Z.id. rewrite map_ext with (g := fun k => nth k l 0).
  - induction l as [|x l IH]; [easy|]. cbn [length seq map nth]. f_equal. rewrite <- seq_shift, map_map. exact IH.
  - intros k. now rewrite Nat2Z.id.
Qed.
Definition is_perm (p : list Z) (n : Z) := Permutation p (zrange n).
Lemma dot_source p idx st n : is_perm p n -> length idx = length p -> Z.of_nat (length st) = n ->
  dot (source_index p idx) st = dot idx (permute p st).
Proof.
  intros P Li Ls. pose proof (Permutation_length P) as Lp. rewrite zrange_length in Lp.
  assert (N : NoDup p) by (eapply Permutation_NoDup; [symmetry; exact P|apply zrange_nodup]).
  unfold source_index, permute. replace (Z.of_nat (length p)) with n by lia.
  rewrite <- (find_map p idx N Li) at 2. rewrite dot_map.
  rewrite <- (map_nth_zrange st n Ls) at 1. rewrite dot_map. symmetry. apply sum_perm, Permutation_map. exact P.
Qed.
Lemma Forall2_map_both {A} (R : Z -> Z -> Prop) (f g : A -> Z) (l : list A) :
  Forall2 R (map f l) (map g l) <-> (forall a, In a l -> R (f a) (g a)).
Proof.
  induction l as [|x l IH]; cbn [map].
  - split; [easy|constructor].
  - split.
    + inversion 1; subst. intros a [<-|I]; [easy|]. now apply IH.
    + intros H. constructor; [apply H; now left|]. apply IH. intros a I. apply H. now right.
Qed.
Lemma source_in p idx sh n : is_perm p n -> Z.of_nat (length sh) = n -> In idx (indices (permute p sh)) ->
  In (source_index p idx) (indices sh).
Proof.
  intros P Ls H. pose proof (indices_len_in _ _ H) as Li. unfold permute in Li. rewrite map_length in Li.
  pose proof (Permutation_length P) as Lp. rewrite zrange_length in Lp.
  assert (N : NoDup p) by (eapply Permutation_NoDup; [symmetry; exact P|apply zrange_nodup]).
  apply in_indices in H. apply in_indices. unfold source_index, permute in *. replace (Z.of_nat (length p)) with n by lia.
  rewrite <- (map_nth_zrange sh n Ls) at 1. rewrite <- (find_map p idx N Li) in H.
  rewrite Forall2_map_both in *. intros a I. apply H. eapply Permutation_in; [symmetry; exact P|exact I].
Qed.
Lemma offs_permute p sh st o n : is_perm p n -> Z.of_nat (length sh) = n -> Z.of_nat (length st) = n -> nonneg sh ->
  forall b, map (pair b) (offs o (permute p sh) (permute p st)) =
  map (fun idx => at_index (0%nat, 0) sh (map (pair b) (offs o sh st)) (source_index p idx)) (indices (permute p sh)).
Proof.
  intros P Ls Lt N b. rewrite offs_indices by (unfold permute; now rewrite !map_length).
  rewrite map_map. apply map_ext_in. intros idx H.
  rewrite (offs_indices sh) by lia. rewrite map_map. rewrite at_index_map; [|easy|eapply source_in; eauto].
  f_equal. f_equal. erewrite dot_source; eauto. rewrite (indices_len_in _ _ H). unfold permute. now rewrite map_length.
Qed.
Lemma size_perm sh sh' : Permutation sh sh' -> size sh = size sh'.
Proof. induction 1; rewrite ?size_cons; nia. Qed.
Lemma permute_perm p l n : is_perm p n -> Z.of_nat (length l) = n -> Permutation (permute p l) l.
Proof.
  intros P L. unfold permute. etransitivity; [apply Permutation_map; exact P|]. now rewrite map_nth_zrange.
Qed.
Lemma sizable_perm sh sh' : Permutation sh sh' -> sizable sh = true -> sizable sh' = true.
Proof.
  intros P. rewrite !sizable_alt. intros [N S]. split.
  - unfold nonneg in *. eapply Permutation_Forall; eauto.
  - rewrite <- (size_perm (map (Z.max 1) sh)); [easy|]. now apply Permutation_map.
Qed.
Lemma distinct_nodup l : distinct l = true <-> NoDup l.
Proof.
  induction l as [|x l IH]; cbn; [split; [constructor|easy]|].
  rewrite andb_true_iff, negb_true_iff, IH. split.
  - intros [H N]. constructor; [|easy]. intros I. rewrite <- not_true_iff_false in H. apply H.
    apply existsb_exists. exists x. split; [easy|apply Z.eqb_refl].
  - inversion 1; subst. split; [|easy]. apply not_true_iff_false. intros E. apply existsb_exists in E as [y [I E]].
    apply Z.eqb_eq in E. now subst.
Qed.
Lemma norm_range n i j : norm n i = Some j -> 0 <= j < n.
Proof. unfold norm. destruct (Z.leb_spec 0 (if i <? 0 then i + n else i)), (Z.ltb_spec (if i <? 0 then i + n else i) n); cbn; inversion 1; lia. Qed.
Lemma norms_range n l r : norms n l = Some r -> length r = length l /\ Forall (fun j => 0 <= j < n) r.
Proof.
  revert r; induction l as [|x l IH]; intros r; cbn.
  - injection 1 as <-. now split.
  - destruct (norm n x) eqn:E; [|easy]. destruct (norms n l) as [r'|]; [|easy]. injection 1 as <-.
    destruct (IH _ eq_refl). split; [cbn; congruence|]. constructor; [|easy]. now apply norm_range in E.
Qed.
Lemma permutation_perm n axes p : 0 <= n -> permutation n axes = Some p -> is_perm p n.
Proof.
  intros Hn. unfold permutation. destruct axes as [l|].
  - destruct (norms n l) as [r|] eqn:E; [|easy]. destruct (Z.eqb_spec (Z.of_nat (length r)) n); [|easy]. cbn.
    destruct (distinct r) eqn:D; [|easy]. injection 1 as <-. apply distinct_nodup in D.
    apply norms_range in E as [_ F]. apply NoDup_Permutation_bis; [easy|rewrite zrange_length; lia|].
    intros x I. apply in_zrange. rewrite Forall_forall in F. auto.
  - injection 1 as <-. unfold is_perm. symmetry. apply Permutation_rev.
Qed.

(** ** Broadcasting *)
Lemma pad_length n sh : length (pad n sh) = Nat.max n (length sh).
Proof. unfold pad. rewrite app_length, repeat_length. lia. Qed.
Lemma stretch_spec a b : forall l, stretch a b = Some l ->
  length a = length l /\ length b = length l /\
  Forall2 (fun x z => x = z \/ x = 1) a l /\ Forall2 (fun y z => y = z \/ y = 1) b l.
Proof.
  revert b; induction a as [|x a IH]; intros [|y b] l; cbn; try easy.
  - injection 1 as <-. repeat split; constructor.
  - destruct (stretch a b) as [r|] eqn:E; [|easy]. destruct (IH _ _ E) as (L1 & L2 & F1 & F2).
    destruct (Z.eqb_spec x y); [|destruct (Z.eqb_spec x 1); [|destruct (Z.eqb_spec y 1); [|easy]]];
      injection 1 as <-; cbn; repeat split; try congruence; constructor; auto.
Qed.
Definition bstride (bsh sh st : list Z) : list Z :=
  repeat 0 (length bsh - length sh) ++ map (fun p => if 1 <? fst p then snd p else 0) (combine sh st).
Lemma dot_zeros k idx st : (k <= length idx)%nat -> dot idx (repeat 0 k ++ st) = dot (skipn k idx) st.
Proof.
  revert idx; induction k as [|k IH]; intros idx L; [easy|]. destruct idx as [|i idx]; [easy|].
  cbn [repeat app dot skipn]. rewrite IH by (cbn in L; lia). lia.
Qed.
Lemma dot_narrow sh : forall st idx, length st = length sh -> length idx = length sh ->
  Forall2 (fun i n => n = 1 \/ 0 <= i < n) idx sh ->
  dot idx (map (fun p => if 1 <? fst p then snd p else 0) (combine sh st)) = dot (narrow sh idx) st /\
  In (narrow sh idx) (indices sh).
Proof.
  induction sh as [|n sh IH]; intros [|s st] [|i idx] L1 L2 F; try easy.
  - cbn. auto.
  - inversion F as [|? ? ? ? H F']; subst. cbn in L1, L2. destruct (IH st idx) as [E I]; [lia|lia|easy|].
    cbn [combine map dot narrow fst snd]. split.
    + rewrite E. destruct (Z.ltb_spec 1 n); destruct (Z.eqb_spec n 1); try lia.
    + apply in_indices. apply in_indices in I. constructor; [|easy]. destruct (Z.eqb_spec n 1); lia.
Qed.
Lemma Forall2_skipn {A B} (R : A -> B -> Prop) k l l' : Forall2 R l l' -> Forall2 R (skipn k l) (skipn k l').
Proof. intros F. revert k; induction F; intros [|k]; cbn; auto. Qed.
Lemma Forall2_trans' (P Q R : Z -> Z -> Prop) a b c : (forall x y z, P x z -> Q y z -> R x y) ->
  Forall2 P a c -> Forall2 Q b c -> Forall2 R a b.
Proof.
  intros H F. revert b; induction F as [|x z a c Hx F IH]; intros b G; inversion G; subst; constructor; eauto.
Qed.
Lemma bstride_dot bsh sh st idx : length st = length sh -> (length sh <= length bsh)%nat ->
  Forall2 (fun x z => x = z \/ x = 1) (pad (length bsh) sh) bsh -> In idx (indices bsh) ->
  dot idx (bstride bsh sh st) = dot (narrow sh (skipn (length idx - length sh) idx)) st /\
  In (narrow sh (skipn (length idx - length sh) idx)) (indices sh).
Proof.
  intros L1 L2 F I. pose proof (indices_len_in _ _ I) as Li. apply in_indices in I. unfold bstride.
  rewrite dot_zeros by lia. rewrite Li. apply dot_narrow; [easy|rewrite skipn_length; lia|].
  apply Forall2_skipn with (k := (length bsh - length sh)%nat) in F, I.
  assert (E : skipn (length bsh - length sh) (pad (length bsh) sh) = sh).
  { unfold pad. rewrite skipn_app, skipn_all2 by (rewrite repeat_length; lia). rewrite repeat_length, Nat.sub_diag. easy. }
  rewrite E in F. eapply Forall2_trans'; [|exact I|exact F]. cbn. intros. lia.
Qed.

(** ** Joining *)
Lemma cat_map {A B} (f : A -> B) k : forall l, cat k (map (fun p => (fst p, map f (snd p))) l) = map f (cat k l).
Proof.
  induction k as [|k IH]; intros l.
  - cbn [cat]. rewrite flat_map_map, map_flat_map. easy.
  - cbn [cat]. destruct l as [|[[|n sh] xs] l]; [easy|easy|]. cbn [map fst snd].
    rewrite map_flat_map. apply flat_map_ext. intros i. rewrite <- IH. cbn [map fst snd]. f_equal.
    rewrite part_map. f_equal. rewrite !map_map. cbn [fst snd]. apply map_ext. intros [s ys]. cbn. now rewrite part_map.
Qed.
Lemma perm_flat_map_swap {A B C} (f : A -> B -> list C) (la : list A) (lb : list B) :
  Permutation (flat_map (fun a => flat_map (f a) lb) la) (flat_map (fun b => flat_map (fun a => f a b) la) lb).
Proof.
  induction la as [|a la IH]; cbn [flat_map].
  - induction lb; cbn; auto.
  - rewrite IH. clear IH. induction lb as [|b lb IH]; cbn [flat_map]; [easy|].
    rewrite <- !app_assoc. apply Permutation_app_head. rewrite <- IH.
    rewrite !app_assoc. apply Permutation_app_tail. apply Permutation_app_comm.
Qed.
Lemma skipn_skipn' {A} a b (l : list A) : skipn a (skipn b l) = skipn (b + a) l.
Proof. revert l; induction b as [|b IH]; intros [|x l]; cbn; rewrite ?skipn_nil; auto. Qed.
Lemma parts_all {A} n k (l : list A) : 0 <= n -> 0 <= k -> length l = Z.to_nat (n * k) ->
  flat_map (part k l) (zrange n) = l.
Proof.
  intros Hn Hk. revert l. pattern n. apply natlike_ind; [| |easy].
  - intros l L. destruct l; [easy|]. cbn in L. lia.
  - intros x Hx IH l L. replace (Z.succ x) with (x + 1) by lia. rewrite zrange_S, flat_map_app by easy. cbn [flat_map].
    rewrite app_nil_r. rewrite <- (firstn_skipn (Z.to_nat (x * k)) l) at 3. f_equal.
    + transitivity (flat_map (part k (firstn (Z.to_nat (x * k)) l)) (zrange x)); [|apply IH; rewrite firstn_length; nia].
      apply flat_map_ext_in. intros i Hi. apply in_zrange in Hi. unfold part.
      rewrite skipn_firstn_comm, firstn_firstn. f_equal. rewrite Nat.min_l by nia. easy.
    + unfold part. apply firstn_all2. rewrite skipn_length. nia.
Qed.
Definition fit {A} (p : list Z * list A) := nonneg (fst p) /\ length (snd p) = Z.to_nat (size (fst p)).
(** Shapes that agree on the first [k] dimensions. *)
Fixpoint agree (k : nat) (sh sh' : list Z) : Prop :=
  match k with
  | O => True
  | S k => match sh, sh' with n :: sh, n' :: sh' => n = n' /\ agree k sh sh' | _, _ => False end
  end.
Lemma part_length {A} n k (l : list A) i : 0 <= k -> length l = Z.to_nat (n * k) -> 0 <= i < n ->
  length (part k l i) = Z.to_nat k.
Proof. intros Hk L Hi. unfold part. rewrite firstn_length, skipn_length. nia. Qed.
Lemma cat_perm {A} k : forall (l : list (list Z * list A)) sh, Forall fit l -> Forall (fun p => agree k (fst p) sh) l ->
  Permutation (cat k l) (flat_map snd l).
Proof.
  induction k as [|k IH]; intros l sh F G; [easy|].
  destruct l as [|p l]; [easy|]. inversion G as [|? ? Gp _]; subst.
  destruct sh as [|n sh]; [destruct p as [[|? ?] ?]; easy|].
  assert (E : cat (S k) (p :: l) = flat_map (fun i => cat k (map (fun p => (tl (fst p), part (size (tl (fst p))) (snd p) i)) (p :: l))) (zrange n)).
  { cbn [cat]. destruct p as [[|n' s] xs]; [easy|]. cbn in Gp. destruct Gp as [-> _]. easy. }
  rewrite E. clear E Gp. set (L := p :: l) in *. clearbody L.
  assert (C : forall q, In q L -> exists s, fst q = n :: s /\ nonneg s /\ 0 <= n /\ length (snd q) = Z.to_nat (n * size s) /\ agree k s sh).
  { intros q I. rewrite Forall_forall in F, G. destruct (F q I) as [Nq Lq]. specialize (G q I).
    destruct q as [[|n' s] xs]; [easy|]. cbn in *. destruct G as [-> G]. exists s. inversion Nq; subst. auto. }
  transitivity (flat_map (fun i => flat_map (fun q => part (size (tl (fst q))) (snd q) i) L) (zrange n)).
  - assert (H : forall i, In i (zrange n) ->
      Permutation (cat k (map (fun p0 => (tl (fst p0), part (size (tl (fst p0))) (snd p0) i)) L))
                  (flat_map (fun q => part (size (tl (fst q))) (snd q) i) L)).
    { intros i Hi. apply in_zrange in Hi. rewrite (IH _ sh).
      - rewrite flat_map_map. easy.
      - apply Forall_forall. intros q I. apply in_map_iff in I as [q' [<- I]]. destruct (C q' I) as (s & E & Ns & Hn & Lq & _).
        split; cbn [fst snd]; rewrite E; cbn [tl]; [easy|]. eapply part_length; eauto using size_nonneg.
      - apply Forall_forall. intros q I. apply in_map_iff in I as [q' [<- I]]. destruct (C q' I) as (s & E & Ns & Hn & Lq & Ag).
        cbn [fst]. rewrite E. easy. }
    clear -H. induction (zrange n) as [|i r IH]; cbn [flat_map]; [easy|].
    apply Permutation_app; [apply H; now left|]. apply IH. intros j I. apply H. now right.
  - rewrite perm_flat_map_swap. rewrite flat_map_ext_in with (g := snd); [easy|].
    intros q I. destruct (C q I) as (s & E & Ns & Hn & Lq & _). rewrite E. cbn [tl]. apply parts_all; auto using size_nonneg.
Qed.

(** Regions of a strided array along axis [k], one after another. *)
Fixpoint regions (k : nat) (o : Z) (st : list Z) (shs : list (list Z)) : list (list Z * list Z) :=
  match shs with
  | [] => []
  | sh :: shs => (sh, offs o sh st) :: regions k (o + nth k sh 0 * nth k st 0) st shs
  end.
Lemma regions_S k o n s st : forall shs i, 0 <= i < n -> Forall (fun sh => exists r, sh = n :: r /\ nonneg sh /\ length r = length st) shs ->
  map (fun p => (tl (fst p), part (size (tl (fst p))) (snd p) i)) (regions (S k) o (s :: st) shs)
  = regions k (o + i * s) st (map (@tl Z) shs).
Proof.
  intros shs; revert o; induction shs as [|sh shs IH]; intros o i Hi F; [easy|].
  inversion F as [|? ? (r & -> & N & L) F']; subst. cbn [regions map fst snd tl nth]. f_equal.
  - f_equal. now apply part_offs.
  - rewrite IH by easy. f_equal. lia.
Qed.
Lemma cat_regions k : forall o st shs sh, Forall (fun s => nonneg s /\ length s = length st /\ length s = length sh /\ (k < length s)%nat /\ remove k s = remove k sh) shs ->
  match shs with [] => False | s :: _ => s = sh end ->
  cat k (regions k o st shs) = offs o (lset sh k (sum (map (fun s => nth k s 0) shs))) st.
Proof.
  induction k as [|k IH]; intros o st shs sh F H.
  - destruct st as [|s st].
    { destruct shs as [|s0 shs]; [easy|]. subst. inversion F as [|? ? (? & Q1 & ? & Q2 & ?) ?]; subst. cbn in Q1. lia. }
    assert (exists n r, sh = n :: r) as (n & r & ->).
    { destruct shs as [|s0 shs]; [easy|]. subst. inversion F as [|? ? (_ & _ & _ & Q2 & _) ?]; subst. destruct sh; [cbn in Q2; lia|eauto]. }
    cbn [cat lset]. clear H. cbn [offs].
    assert (G : Forall (fun s0 => exists m, s0 = m :: r /\ 0 <= m) shs).
    { eapply Forall_impl; [|exact F]. cbn. intros a (N & L1 & L2 & L3 & R). destruct a as [|m a]; [cbn in *; lia|].
      cbn in R. subst. exists m. split; [easy|]. now inversion N. }
    clear F. revert o; induction G as [|a shs (m & -> & Hm) G IH]; intros o; [easy|].
    cbn [regions flat_map snd map nth]. rewrite IH. change (sum (m :: map (fun s0 => nth 0 s0 0) shs)) with (m + sum (map (fun s0 => nth 0 s0 0) shs)).
    assert (0 <= sum (map (fun s0 => nth 0 s0 0) shs)).
    { clear -G. unfold sum. induction G as [|a shs (m & -> & Hm) G IH]; cbn [map fold_right nth]; lia. }
    rewrite zrange_app, flat_map_app by easy. f_equal. rewrite flat_map_map. apply flat_map_ext. intros i. f_equal. lia.
  - destruct st as [|s st].
    { destruct shs as [|s0 shs]; [easy|]. subst. inversion F as [|? ? (? & Q1 & ? & Q2 & ?) ?]; subst. cbn in Q1. lia. }
    assert (exists n r, sh = n :: r) as (n & r & ->).
    { destruct shs as [|s0 shs]; [easy|]. subst. inversion F as [|? ? (_ & _ & _ & Q2 & _) ?]; subst. destruct sh; [cbn in Q2; lia|eauto]. }
    assert (G : Forall (fun s0 => exists q, s0 = n :: q /\ nonneg s0 /\ length q = length st /\ length q = length r /\ (k < length q)%nat /\ remove k q = remove k r) shs).
    { eapply Forall_impl; [|exact F]. cbn. intros a (N & L1 & L2 & L3 & R). destruct a as [|m a]; [cbn in *; lia|].
      cbn in R, L1, L2, L3. injection R as -> R. exists a. repeat split; try lia; easy. }
    assert (E : cat (S k) (regions (S k) o (s :: st) shs) =
      flat_map (fun i => cat k (map (fun p => (tl (fst p), part (size (tl (fst p))) (snd p) i)) (regions (S k) o (s :: st) shs))) (zrange n)).
    { destruct shs as [|s0 shs]; [easy|]. subst. easy. }
    rewrite E. cbn [lset offs]. apply flat_map_ext_in. intros i Hi. apply in_zrange in Hi.
    rewrite regions_S with (n := n).
    + rewrite (IH _ _ _ r).
      * f_equal. f_equal. f_equal. rewrite map_map. apply map_ext_in. intros a I. rewrite Forall_forall in G.
        destruct (G a I) as (q & -> & _). easy.
      * rewrite Forall_map. eapply Forall_impl; [|exact G]. cbn. intros a (q & -> & N & L1 & L2 & L3 & R). cbn [tl].
        inversion N; subst. repeat split; easy.
      * destruct shs as [|s0 shs]; [easy|]. subst. easy.
    + easy.
    + eapply Forall_impl; [|exact G]. cbn. intros a (q & -> & N & L1 & L2 & L3 & R). exists q. repeat split; auto.
Qed.
Lemma offs_insert k : forall o sh st, (k < length st)%nat -> length st = S (length sh) ->
  offs o (insert k 1 sh) st = offs o sh (remove k st).
Proof.
  induction k as [|k IH]; intros o sh st L1 L2.
  - destruct st as [|s st]; [easy|]. cbn [insert offs remove]. change (zrange 1) with [0]. cbn [flat_map]. rewrite app_nil_r. f_equal. lia.
  - destruct st as [|s st]; [easy|]. destruct sh as [|n sh]; [cbn in *; lia|]. cbn [insert offs remove].
    apply flat_map_ext. intros i. apply IH; cbn in *; lia.
Qed.
