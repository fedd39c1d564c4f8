(** Proofs about the sequence model (SeqModel) against Python semantics (SeqSpec). *)
From Verif Require Import Base SeqModel SeqSpec.

Ltac Zify.zify_post_hook ::= Z.to_euclidean_division_equations.

Lemma zlen_py {A} (l : list A) : zlen l = py_len l.
Proof. reflexivity. Qed.

Lemma zlen_nonneg {A} (l : list A) : 0 <= zlen l.
Proof. unfold zlen. lia. Qed.

Lemma py_len_nonneg {A} (l : list A) : 0 <= py_len l.
Proof. unfold py_len. lia. Qed.

Lemma zlen_app {A} (l m : list A) : zlen (l ++ m) = zlen l + zlen m.
Proof. unfold zlen. rewrite app_length. lia. Qed.

Lemma zlen_cons {A} (x : A) l : zlen (x :: l) = zlen l + 1.
Proof. unfold zlen. cbn [length]. lia. Qed.

(** Bounds *)
Lemma slice_correction_is_py a len : 0 <= len ->
  slice_index_correction a len = py_bound a len.
Proof.
  intros H. unfold slice_index_correction, py_bound.
  destruct (Z.ltb_spec a 0).
  - destruct (Z.ltb_spec a (- len)); lia.
  - destruct (Z.gtb_spec a len); lia.
Qed.

Lemma py_bound_range a len : 0 <= len -> 0 <= py_bound a len <= len.
Proof. intros H. unfold py_bound. lia. Qed.

(** Enumeration *)
Lemma enum_app {A} (l m : list A) k : enum k (l ++ m) = enum k l ++ enum (k + zlen l) m.
Proof.
  revert k. induction l as [|x l IH]; intros k.
  - cbn. unfold zlen. cbn. rewrite Z.add_0_r. reflexivity.
  - cbn [app enum]. rewrite IH, zlen_cons. f_equal. f_equal. f_equal. lia.
Qed.

Lemma enum_in {A} (l : list A) k i x : In (i, x) (enum k l) ->
  k <= i < k + zlen l /\ nth_error l (Z.to_nat (i - k)) = Some x.
Proof.
  revert k. induction l as [|y l IH]; intros k H; cbn in H.
  - contradiction.
  - rewrite zlen_cons. destruct H as [H|H].
    + injection H as -> ->. pose proof (zlen_nonneg l).
      replace (i - i) with 0 by lia. split; [lia | reflexivity].
    + apply IH in H. destruct H as [H1 H2]. split; [lia|].
      replace (Z.to_nat (i - k)) with (S (Z.to_nat (i - (k + 1)))) by lia. exact H2.
Qed.

Lemma enum_nth {A} (l : list A) k i x : 0 <= i -> nth_error l (Z.to_nat i) = Some x ->
  In (k + i, x) (enum k l).
Proof.
  revert k i. induction l as [|y l IH]; intros k i Hi H.
  - destruct (Z.to_nat i); discriminate.
  - cbn [enum]. destruct (Z.eq_dec i 0) as [->|Hn].
    + cbn in H. injection H as ->. left. f_equal. lia.
    + right. replace (k + i) with ((k + 1) + (i - 1)) by lia. apply IH; [lia|].
      replace (Z.to_nat i) with (S (Z.to_nat (i - 1))) in H by lia. exact H.
Qed.

Lemma filter_all_false {A} (f : A -> bool) l :
  (forall x, In x l -> f x = false) -> filter f l = [].
Proof.
  induction l as [|x l IH]; intros H; [reflexivity|].
  cbn. rewrite (H x (or_introl eq_refl)). apply IH. intros y Hy. apply H. right. exact Hy.
Qed.

(** Selection with explicit bounds *)
Definition sel {A} (l : list A) (lo hi s : Z) : list A :=
  map snd (filter (fun p => py_selected lo hi s (fst p)) (enum 0 l)).

Lemma sel_empty {A} (l : list A) lo hi s : hi <= lo -> sel l lo hi s = [].
Proof.
  intros H. unfold sel. rewrite filter_all_false; [reflexivity|].
  intros [i x] _. cbn. unfold py_selected. lia.
Qed.

Lemma sel_step {A} (l : list A) lo hi s x : 0 < s -> 0 <= lo < hi ->
  nth_error l (Z.to_nat lo) = Some x -> sel l lo hi s = x :: sel l (lo + s) hi s.
Proof.
  intros Hs Hlo Hx. destruct (nth_error_split l _ Hx) as (l1 & l2 & -> & Hl).
  unfold sel. rewrite enum_app. cbn [enum].
  assert (Hz : zlen l1 = lo) by (unfold zlen; lia).
  rewrite Hz. rewrite !filter_app, !map_app. cbn [filter fst].
  rewrite (filter_all_false _ (enum 0 l1)).
  2:{ intros [i y] Hi. apply enum_in in Hi. cbn. unfold py_selected. lia. }
  rewrite (filter_all_false _ (enum 0 l1)).
  2:{ intros [i y] Hi. apply enum_in in Hi. cbn. unfold py_selected. lia. }
  cbn [map app].
  assert (H1 : py_selected lo hi s (0 + lo) = true).
  { unfold py_selected. replace (0 + lo - lo) with 0 by lia. rewrite Z.mod_0_l by lia. lia. }
  assert (H2 : py_selected (lo + s) hi s (0 + lo) = false) by (unfold py_selected; lia).
  rewrite H1, H2. cbn [map snd]. f_equal. f_equal.
  apply filter_ext_in. intros [i y] Hi. apply enum_in in Hi. cbn. unfold py_selected.
  replace (i - lo) with ((i - (lo + s)) + 1 * s) by lia. rewrite Z.mod_add by lia.
  destruct Hi as [Hi _].
  destruct (Z.ltb_spec i hi); [|lia].
  destruct (Z.leb_spec lo i); [|lia].
  destruct (Z.leb_spec (lo + s) i); [reflexivity|]. cbn.
  apply Z.eqb_neq. intros Hm. apply Z.mod_divide in Hm; [|lia]. destruct Hm as [q Hq].
  assert (q < 0) by nia. assert (-1 < q) by nia. lia.
Qed.

Lemma nth_error_some_lt {A} (l : list A) i : 0 <= i < zlen l ->
  exists x, nth_error l (Z.to_nat i) = Some x.
Proof.
  intros H. destruct (nth_error l (Z.to_nat i)) eqn:E; [eauto|].
  apply nth_error_None in E. unfold zlen in H. lia.
Qed.

Lemma rdz_some {A} (l : list A) i x : 0 <= i -> nth_error l (Z.to_nat i) = Some x ->
  rdz l i = Ok x.
Proof. intros H E. unfold rdz. destruct (Z.ltb_spec i 0); [lia|]. unfold rd. rewrite E. reflexivity. Qed.

Lemma sel_one {A} (l : list A) lo hi : 0 <= lo <= hi -> hi <= zlen l ->
  sel l lo hi 1 = firstn (Z.to_nat (hi - lo)) (skipn (Z.to_nat lo) l).
Proof.
  intros H1 H2. remember (Z.to_nat (hi - lo)) as n eqn:En. revert lo H1 En.
  induction n as [|n IH]; intros lo H1 En.
  - rewrite sel_empty by lia. reflexivity.
  - destruct (nth_error_some_lt l lo) as [x Hx]; [lia|].
    rewrite (sel_step l lo hi 1 x) by (assumption || lia).
    rewrite (IH (lo + 1)) by lia.
    replace (Z.to_nat (lo + 1)) with (S (Z.to_nat lo)) by lia.
    destruct (nth_error_split l _ Hx) as (l1 & l2 & -> & Hl).
    rewrite <- Hl.
    assert (E1 : skipn (length l1) (l1 ++ x :: l2) = x :: l2)
      by (rewrite skipn_app, skipn_all, Nat.sub_diag; reflexivity).
    assert (E2 : skipn (S (length l1)) (l1 ++ x :: l2) = l2).
    { rewrite skipn_app. rewrite (skipn_all2 l1) by lia.
      replace (S (length l1) - length l1)%nat with 1%nat by lia. reflexivity. }
    rewrite E1, E2. reflexivity.
Qed.

(** The pointer loop selects the right elements. *)
Lemma rd_addr_ok {A} esz base (l : list A) i x : 0 < esz -> 0 <= i ->
  nth_error l (Z.to_nat i) = Some x -> rd_addr esz base l (base + esz * i) = Ok x.
Proof.
  intros He Hi Hx. unfold rd_addr. replace (base + esz * i - base) with (i * esz) by lia.
  rewrite Z.mod_mul by lia. cbn. rewrite Z.div_mul by lia. apply rdz_some; assumption.
Qed.

Lemma ptr_loop_ok {A} esz base (l : list A) hi s : 0 < esz -> 0 <= base -> 0 < s ->
  hi <= zlen l -> base + esz * (hi + s) < two64 ->
  forall fuel i, 0 <= i -> hi - i < Z.of_nat fuel ->
  base + esz * i < two64 ->
  ptr_loop fuel esz base l (base + esz * i) (base + esz * hi) s = Ok (sel l i hi s).
Proof.
  intros He Hb Hs Hhi Hw. induction fuel as [|fuel IH]; intros i Hi Hf Hiw.
  - cbn [ptr_loop]. destruct (Z.ltb_spec (base + esz * i) (base + esz * hi)).
    + exfalso. assert (i < hi) by (apply (Z.mul_lt_mono_pos_l esz); lia). lia.
    + rewrite sel_empty; [reflexivity|]. apply (Z.mul_le_mono_pos_l _ _ esz); lia.
  - cbn [ptr_loop]. destruct (Z.ltb_spec (base + esz * i) (base + esz * hi)).
    + assert (i < hi) by (apply (Z.mul_lt_mono_pos_l esz); lia).
      destruct (nth_error_some_lt l i) as [x Hx]; [lia|].
      rewrite (rd_addr_ok _ _ _ _ x) by (assumption || lia). cbn [bind].
      assert (E : base + esz * i + esz * s = base + esz * (i + s)) by ring.
      assert (esz * (i + s) < esz * (hi + s)) by (apply Z.mul_lt_mono_pos_l; lia).
      assert (0 <= esz * (i + s)) by (apply Z.mul_nonneg_nonneg; lia).
      rewrite E. unfold wrapu64. rewrite Z.mod_small by lia.
      rewrite IH by lia. cbn [rmap]. rewrite (sel_step l i hi s x) by (assumption || lia).
      reflexivity.
    + rewrite sel_empty; [reflexivity|]. apply (Z.mul_le_mono_pos_l _ _ esz); lia.
Qed.

Lemma idx_loop_ok {A} (l : list A) hi s : 0 < s -> hi <= zlen l -> hi + s <= two63 ->
  forall fuel i, 0 <= i -> hi - i < Z.of_nat fuel ->
  idx_loop fuel l i hi s = Ok (sel l i hi s).
Proof.
  intros Hs Hhi Hw. induction fuel as [|fuel IH]; intros i Hi Hf.
  - cbn [idx_loop]. destruct (Z.ltb_spec i hi); [lia|]. rewrite sel_empty by lia. reflexivity.
  - cbn [idx_loop]. destruct (Z.ltb_spec i hi).
    + destruct (nth_error_some_lt l i) as [x Hx]; [lia|].
      rewrite (rdz_some _ _ x) by assumption. cbn [bind].
      unfold chk64, int64b. replace ((- two63 <=? i + s) && (i + s <? two63)) with true by (unfold two63 in *; lia).
      cbn [bind]. rewrite IH by lia. cbn [rmap]. rewrite (sel_step l i hi s x) by (assumption || lia).
      reflexivity.
    + rewrite sel_empty by lia. reflexivity.
Qed.

Lemma sel_len {A} (l : list A) hi s : 0 < s -> hi <= zlen l ->
  forall n lo, 0 <= lo -> hi - lo <= Z.of_nat n ->
  zlen (sel l lo hi s) = if lo <? hi then (hi - lo + s - 1) / s else 0.
Proof.
  intros Hs Hhi. induction n as [|n IH]; intros lo Hlo Hn.
  - rewrite sel_empty by lia. destruct (Z.ltb_spec lo hi); [lia|reflexivity].
  - destruct (Z.ltb_spec lo hi).
    + destruct (nth_error_some_lt l lo) as [x Hx]; [lia|].
      rewrite (sel_step l lo hi s x) by (assumption || lia). rewrite zlen_cons, IH by lia.
      destruct (Z.ltb_spec (lo + s) hi).
      * replace (hi - lo + s - 1) with ((hi - (lo + s) + s - 1) + 1 * s) by lia.
        rewrite Z.div_add by lia. reflexivity.
      * symmetry. replace (hi - lo + s - 1) with ((hi - lo - 1) + 1 * s) by lia.
        rewrite Z.div_add by lia. rewrite Z.div_small by lia. reflexivity.
    + rewrite sel_empty by lia. reflexivity.
Qed.

Definition slice_guard (esz base len s : Z) : Prop :=
  0 < esz /\ 0 <= base /\ base + esz * (len + s) < two64.

Lemma list_get_slice_ok {A} esz base (l : list A) a b s : 0 < s ->
  slice_guard esz base (zlen l) s ->
  list_get_slice esz base l a b s = Ok (py_slice l a b s).
Proof.
  intros Hs (He & Hb & Hg). unfold list_get_slice, py_slice.
  destruct (Z.gtb_spec s 0); [|lia].
  pose proof (zlen_nonneg l).
  rewrite !slice_correction_is_py by assumption. change (@py_len) with (@zlen).
  set (lo := py_bound a (zlen l)). set (hi := py_bound b (zlen l)).
  assert (0 <= lo <= zlen l) by (apply py_bound_range; assumption).
  assert (0 <= hi <= zlen l) by (apply py_bound_range; assumption).
  change (map snd (filter (fun p => py_selected lo hi s (fst p)) (enum 0 l))) with (sel l lo hi s).
  destruct (Z.leb_spec hi lo).
  - rewrite sel_empty by assumption. reflexivity.
  - destruct (Z.eqb_spec s 1) as [->|].
    + unfold vec_range. replace ((0 <=? lo) && (lo <=? hi) && (hi <=? zlen l)) with true by lia.
      rewrite sel_one by lia. reflexivity.
    + assert (esz * (hi + s) <= esz * (zlen l + s)) by (apply Z.mul_le_mono_nonneg_l; lia).
      assert (esz * lo <= esz * (zlen l + s)) by (apply Z.mul_le_mono_nonneg_l; lia).
      apply ptr_loop_ok; try lia. unfold zlen in *. lia.
Qed.

Lemma text_get_slice_ok esz base (l : list Z) a b s : 0 < s -> zlen l + s <= two63 ->
  slice_guard esz base (zlen l) s ->
  text_get_slice esz base l a b s = Ok (py_slice l a b s).
Proof.
  intros Hs H63 Hg. pose proof (list_get_slice_ok esz base l a b s Hs Hg) as HL.
  unfold list_get_slice in HL. unfold text_get_slice.
  destruct (Z.gtb_spec s 0); [|lia].
  pose proof (zlen_nonneg l).
  rewrite !slice_correction_is_py in * by assumption.
  set (lo := py_bound a (zlen l)) in *. set (hi := py_bound b (zlen l)) in *.
  assert (0 <= lo <= zlen l) by (apply py_bound_range; assumption).
  assert (0 <= hi <= zlen l) by (apply py_bound_range; assumption).
  destruct (Z.leb_spec hi lo); [exact HL|].
  destruct (Z.eqb_spec s 1); [exact HL|].
  unfold chk64, int64b.
  replace ((- two63 <=? hi - lo + s - 1) && (hi - lo + s - 1 <? two63)) with true by (unfold two63 in *; lia).
  cbn [bind]. rewrite HL. cbn [bind].
  unfold py_slice. change (@py_len) with (@zlen). fold lo hi.
  change (map snd (filter (fun p => py_selected lo hi s (fst p)) (enum 0 l))) with (sel l lo hi s).
  rewrite (sel_len l hi s Hs) with (n := Z.to_nat (hi - lo)) by lia.
  destruct (Z.ltb_spec lo hi); [|lia].
  rewrite Z.quot_div_nonneg by lia. rewrite Z.eqb_refl. reflexivity.
Qed.

Lemma step_not_positive {A} esz base (l : list A) a b s : s <= 0 ->
  list_get_slice esz base l a b s = Exn CheckFailed.
Proof. intros H. unfold list_get_slice. destruct (Z.gtb_spec s 0); [lia|reflexivity]. Qed.

Lemma text_step_not_positive esz base l a b s : s <= 0 ->
  text_get_slice esz base l a b s = Exn CheckFailed.
Proof. intros H. unfold text_get_slice. destruct (Z.gtb_spec s 0); [lia|reflexivity]. Qed.

(** Huge steps: the address wraps and the loop of list_get_slice never ends. *)
Lemma ptr_loop_stuck {A} (esz base : Z) (l : list A) x (step : Z) (hi : Z) : 0 < esz -> 0 <= base ->
  nth_error l 0 = Some x -> 0 < hi -> (esz * step) mod two64 = 0 -> base < two64 ->
  forall fuel, ptr_loop fuel esz base l base (base + esz * hi) step = OutOfFuel.
Proof.
  intros He Hb Hx Hh Hm Hlt. assert (0 < esz * hi) by (apply Z.mul_pos_pos; lia).
  induction fuel as [|fuel IH]; cbn [ptr_loop];
    (destruct (Z.ltb_spec base (base + esz * hi)); [|lia]).
  - reflexivity.
  - replace (rd_addr esz base l base) with (Ok x : res A).
    + cbn [bind]. unfold wrapu64. rewrite Z.add_mod by (unfold two64; lia). rewrite Hm, Z.add_0_r.
      rewrite Z.mod_mod by (unfold two64; lia). rewrite Z.mod_small by lia. rewrite IH. reflexivity.
    + symmetry. replace base with (base + esz * 0) at 2 by lia.
      apply rd_addr_ok; [assumption|lia|exact Hx].
Qed.

(** Indexing *)
Lemma py_item_rdz {A} (l : list A) i : py_index_ok l i ->
  exists x, rdz l (slice_index_correction i (zlen l)) = Ok x /\ py_item l i x.
Proof.
  intros H. unfold py_index_ok in H. change (@py_len) with (@zlen) in H.
  set (j := if i <? 0 then i + zlen l else i).
  assert (Hj : slice_index_correction i (zlen l) = j).
  { unfold slice_index_correction, j. destruct (Z.ltb_spec i 0).
    - destruct (Z.ltb_spec i (- zlen l)); lia.
    - destruct (Z.gtb_spec i (zlen l)); lia. }
  assert (0 <= j < zlen l) by (unfold j; destruct (Z.ltb_spec i 0); lia).
  destruct (nth_error_some_lt l j) as [x Hx]; [lia|]. exists x. split.
  - rewrite Hj. apply rdz_some; [lia|assumption].
  - destruct (nth_error_split l _ Hx) as (l1 & l2 & E & Hl). exists l1, l2. split; [exact E|].
    change (@py_len) with (@zlen). change (zlen l1 = j). unfold zlen. lia.
Qed.

Lemma py_item_unique {A} (l : list A) i x y : py_item l i x -> py_item l i y -> x = y.
Proof.
  intros (l1 & l2 & E1 & H1) (m1 & m2 & E2 & H2).
  assert (length l1 = length m1) by (unfold py_len in *; lia).
  assert (nth_error l (length l1) = Some x).
  { rewrite E1. rewrite nth_error_app2, Nat.sub_diag by lia. reflexivity. }
  assert (nth_error l (length m1) = Some y).
  { rewrite E2. rewrite nth_error_app2, Nat.sub_diag by lia. reflexivity. }
  congruence.
Qed.

Lemma list_get_item_ok {A} (l : list A) i : py_index_ok l i ->
  exists x, list_get_item l i = Ok x /\ py_item l i x.
Proof.
  intros H. destruct (py_item_rdz l i H) as (x & E & P). exists x. split; [|exact P].
  unfold list_get_item. unfold py_index_ok in H. change (@py_len) with (@zlen) in H.
  replace ((i >=? 0) && (i <? zlen l) || (i <? 0) && (i >=? - zlen l)) with true by lia. exact E.
Qed.

Lemma list_get_item_err {A} (l : list A) i : ~ py_index_ok l i -> list_get_item l i = Exn CheckFailed.
Proof.
  intros H. unfold list_get_item. unfold py_index_ok in H. change (@py_len) with (@zlen) in H.
  pose proof (zlen_nonneg l).
  replace ((i >=? 0) && (i <? zlen l) || (i <? 0) && (i >=? - zlen l)) with false by lia. reflexivity.
Qed.

Lemma str_get_item_ok (l : list Z) i : py_index_ok l i ->
  exists x, str_get_item l i = Ok [x] /\ py_item l i x.
Proof.
  intros H. destruct (py_item_rdz l i H) as (x & E & P). exists x. split; [|exact P].
  unfold str_get_item. unfold py_index_ok in H. change (@py_len) with (@zlen) in H.
  replace ((i >=? 0) && (i <? zlen l) || (i <? 0) && (i >=? - zlen l)) with true by lia.
  rewrite E. reflexivity.
Qed.

Lemma bytes_get_item_ok (l : list Z) i : py_index_ok l i ->
  exists x, bytes_get_item l i = Ok (schar x) /\ py_item l i x.
Proof.
  intros H. destruct (py_item_rdz l i H) as (x & E & P). exists x. split; [|exact P].
  unfold bytes_get_item. unfold py_index_ok in H. change (@py_len) with (@zlen) in H.
  replace ((i >=? 0) && (i <? zlen l) || (i <? 0) && (i >=? - zlen l)) with true by lia.
  rewrite E. reflexivity.
Qed.

Lemma str_get_item_err (l : list Z) i : ~ py_index_ok l i -> str_get_item l i = Exn CheckFailed.
Proof.
  intros H. unfold str_get_item. unfold py_index_ok in H. change (@py_len) with (@zlen) in H.
  pose proof (zlen_nonneg l).
  replace ((i >=? 0) && (i <? zlen l) || (i <? 0) && (i >=? - zlen l)) with false by lia. reflexivity.
Qed.

Lemma bytes_get_item_err (l : list Z) i : ~ py_index_ok l i -> bytes_get_item l i = Exn CheckFailed.
Proof.
  intros H. unfold bytes_get_item. unfold py_index_ok in H. change (@py_len) with (@zlen) in H.
  pose proof (zlen_nonneg l).
  replace ((i >=? 0) && (i <? zlen l) || (i <? 0) && (i >=? - zlen l)) with false by lia. reflexivity.
Qed.

(** Assignment *)
Lemma skipn_S_split {A} (l1 : list A) y l2 n : n = length l1 ->
  skipn (S n) (l1 ++ y :: l2) = l2 /\ firstn n (l1 ++ y :: l2) = l1.
Proof.
  intros ->. split.
  - rewrite skipn_app. rewrite skipn_all2 by lia.
    replace (S (length l1) - length l1)%nat with 1%nat by lia. reflexivity.
  - rewrite firstn_app, firstn_all, Nat.sub_diag. cbn. apply app_nil_r.
Qed.

Lemma list_set_item_ok {A} (l : list A) i x : py_index_ok l i ->
  exists l', list_set_item l i x = Ok l' /\ py_set_item l i x l'.
Proof.
  intros H. unfold py_index_ok in H. change (@py_len) with (@zlen) in H.
  unfold list_set_item. set (j := if i <? 0 then i + zlen l else i).
  assert (0 <= j < zlen l) by (unfold j; destruct (Z.ltb_spec i 0); lia).
  replace ((j >=? 0) && (j <? zlen l)) with true by lia.
  unfold vec_set. replace ((0 <=? j) && (j <? zlen l)) with true by lia.
  destruct (nth_error_some_lt l j) as [y Hy]; [lia|].
  destruct (nth_error_split l _ Hy) as (l1 & l2 & E & Hl).
  eexists. split; [reflexivity|]. exists l1, y, l2. split; [exact E|]. split.
  - change (@py_len) with (@zlen). change (zlen l1 = j). unfold zlen. lia.
  - rewrite E. destruct (skipn_S_split l1 y l2 (Z.to_nat j)) as [-> ->]; [lia|reflexivity].
Qed.

Lemma list_set_item_err {A} (l : list A) i x : ~ py_index_ok l i ->
  list_set_item l i x = Exn CheckFailed.
Proof.
  intros H. unfold py_index_ok in H. change (@py_len) with (@zlen) in H. unfold list_set_item.
  set (j := if i <? 0 then i + zlen l else i).
  replace ((j >=? 0) && (j <? zlen l)) with false by (unfold j; destruct (Z.ltb_spec i 0); lia). reflexivity.
Qed.

Lemma set_slice_core {A} (l m : list A) lo hi : 0 <= lo <= hi -> hi <= zlen l ->
  bind (vec_erase l lo hi) (fun l1 => vec_insert l1 lo m)
  = Ok (firstn (Z.to_nat lo) l ++ m ++ skipn (Z.to_nat hi) l).
Proof.
  intros H1 H2. unfold vec_erase.
  replace ((0 <=? lo) && (lo <=? hi) && (hi <=? zlen l)) with true by lia. cbn [bind].
  set (p := firstn (Z.to_nat lo) l). set (q := skipn (Z.to_nat hi) l).
  assert (Hp : length p = Z.to_nat lo).
  { unfold p. rewrite firstn_length. unfold zlen in H2. lia. }
  unfold vec_insert. replace ((0 <=? lo) && (lo <=? zlen (p ++ q))) with true.
  2:{ symmetry. rewrite zlen_app. unfold zlen. lia. }
  rewrite <- Hp. rewrite firstn_app, firstn_all, Nat.sub_diag. cbn [firstn]. rewrite app_nil_r.
  rewrite skipn_app, skipn_all, Nat.sub_diag. reflexivity.
Qed.

Lemma list_set_slice_ok {A} (l m : list A) a b : 0 <= a <= b ->
  list_set_slice l a b m false = Ok (py_set_slice l a b m).
Proof.
  intros H. unfold list_set_slice. replace ((a >=? 0) && (b >=? 0) && (a <=? b)) with true by lia.
  pose proof (zlen_nonneg l). rewrite !slice_correction_is_py by assumption.
  unfold py_set_slice. change (@py_len) with (@zlen).
  assert (E : Z.max (py_bound a (zlen l)) (py_bound b (zlen l)) = py_bound b (zlen l))
    by (unfold py_bound; destruct (Z.ltb_spec a 0); destruct (Z.ltb_spec b 0); lia).
  rewrite E. apply set_slice_core;
    unfold py_bound; destruct (Z.ltb_spec a 0); destruct (Z.ltb_spec b 0); lia.
Qed.

Lemma list_set_slice_rejects {A} (l m : list A) a b al : ~ 0 <= a <= b ->
  list_set_slice l a b m al = Exn CheckFailed.
Proof.
  intros H. unfold list_set_slice. replace ((a >=? 0) && (b >=? 0) && (a <=? b)) with false by lia.
  reflexivity.
Qed.

(** Mutation methods *)
Lemma list_insert_ok {A} (l : list A) i x : list_insert l i x = Ok (py_insert l i x).
Proof.
  unfold list_insert, index_correction, py_insert, py_set_slice. change (@py_len) with (@zlen).
  pose proof (zlen_nonneg l). rewrite Z.max_id.
  set (j := if i <? 0 then i + zlen l else i).
  assert (Hb : py_bound i (zlen l) = Z.max 0 (Z.min (zlen l) j)) by reflexivity.
  rewrite Hb. set (k := if j <? 0 then 0 else j).
  assert (Hk : k = Z.max 0 j) by (unfold k; destruct (Z.ltb_spec j 0); lia).
  destruct (Z.geb_spec k (zlen l)).
  - replace (Z.max 0 (Z.min (zlen l) j)) with (zlen l) by lia.
    unfold zlen. rewrite Nat2Z.id, firstn_all, skipn_all, app_nil_r. reflexivity.
  - replace (Z.max 0 (Z.min (zlen l) j)) with k by lia.
    unfold vec_insert. replace ((0 <=? k) && (k <=? zlen l)) with true by lia. reflexivity.
Qed.

Lemma list_pop_ok {A} (l : list A) i : py_index_ok l i ->
  exists x l', list_pop l i = Ok (x, l') /\ py_pop l i x l'.
Proof.
  intros H. unfold py_index_ok in H. change (@py_len) with (@zlen) in H. unfold list_pop, index_correction.
  set (j := if i <? 0 then i + zlen l else i).
  assert (0 <= j < zlen l) by (unfold j; destruct (Z.ltb_spec i 0); lia).
  replace ((j >=? 0) && (j <? zlen l)) with true by lia.
  destruct (nth_error_some_lt l j) as [x Hx]; [lia|].
  rewrite (rdz_some l j x) by (assumption || lia). cbn [bind].
  unfold vec_erase. replace ((0 <=? j) && (j <=? j + 1) && (j + 1 <=? zlen l)) with true by lia.
  cbn [bind]. eexists x, _. split; [reflexivity|].
  destruct (nth_error_split l _ Hx) as (l1 & l2 & E & Hl).
  exists l1, l2. split; [exact E|]. split.
  - rewrite E. replace (Z.to_nat (j + 1)) with (S (Z.to_nat j)) by lia.
    destruct (skipn_S_split l1 x l2 (Z.to_nat j)) as [-> ->]; [lia|reflexivity].
  - change (@py_len) with (@zlen). change (zlen l1 = j). unfold zlen. lia.
Qed.

Lemma list_pop_err {A} (l : list A) i : ~ py_index_ok l i -> list_pop l i = Exn IndexError.
Proof.
  intros H. unfold py_index_ok in H. change (@py_len) with (@zlen) in H. unfold list_pop, index_correction.
  set (j := if i <? 0 then i + zlen l else i).
  replace ((j >=? 0) && (j <? zlen l)) with false by (unfold j; destruct (Z.ltb_spec i 0); lia). reflexivity.
Qed.

Lemma list_extend_ok {A} (m l : list A) : list_extend l m = l ++ m.
Proof.
  revert l. induction m as [|x m IH]; intros l; cbn [list_extend].
  - rewrite app_nil_r. reflexivity.
  - rewrite IH, <- app_assoc. reflexivity.
Qed.

Lemma repeat_loop_ok {A} n (out l : list A) : repeat_loop n out l = out ++ concat (repeat l n).
Proof.
  revert out. induction n as [|n IH]; intros out; cbn [repeat_loop repeat concat].
  - rewrite app_nil_r. reflexivity.
  - rewrite IH, list_extend_ok, <- app_assoc. reflexivity.
Qed.

Lemma list_repeat_ok {A} (l : list A) n : list_repeat l n = py_repeat l n.
Proof.
  unfold list_repeat, py_repeat. destruct (Z.leb_spec n 0).
  - replace (Z.to_nat n) with O by lia. reflexivity.
  - rewrite repeat_loop_ok. reflexivity.
Qed.

Lemma concat_repeat_snoc {A} (l : list A) n : concat (repeat l n) ++ l = concat (repeat l (S n)).
Proof.
  induction n as [|n IH]; cbn [repeat concat] in *.
  - rewrite app_nil_r. reflexivity.
  - rewrite <- app_assoc, IH. reflexivity.
Qed.

Lemma list_repeat_one_ok {A} (v : A) n : list_repeat_one v n = py_repeat [v] n.
Proof.
  unfold list_repeat_one, py_repeat. destruct (Z.leb_spec n 0).
  - replace (Z.to_nat n) with O by lia. reflexivity.
  - rewrite repeat_loop_ok. cbn [app]. rewrite concat_repeat_snoc.
    replace (S (Z.to_nat (n - 1))) with (Z.to_nat n) by lia. reflexivity.
Qed.

Lemma fold_extend {A} (data : list (bool * list A)) out :
  fold_left (fun out d => list_extend out (snd d)) data out = out ++ concat (map snd data).
Proof.
  revert out. induction data as [|d data IH]; intros out; cbn [fold_left map concat].
  - rewrite app_nil_r. reflexivity.
  - rewrite IH, list_extend_ok, <- app_assoc. reflexivity.
Qed.

Lemma fold_cap {A} (data : list (bool * list A)) c :
  fold_left (fun c d => c + zlen (snd d)) data c = c + zlen (concat (map snd data)).
Proof.
  revert c. induction data as [|d data IH]; intros c; cbn [fold_left map concat].
  - unfold zlen. cbn. lia.
  - rewrite IH, zlen_app. lia.
Qed.

Lemma list_concat_ok {A} (data : list (bool * list A)) : list_concat data = concat (map snd data).
Proof.
  unfold list_concat. rewrite fold_cap. destruct (Z.leb_spec (0 + zlen (concat (map snd data))) 0).
  - destruct (concat (map snd data)); [reflexivity|]. rewrite zlen_cons in *.
    pose proof (zlen_nonneg l). lia.
  - destruct data as [|[[] m] data]; [reflexivity| |].
    + rewrite fold_extend. reflexivity.
    + rewrite fold_extend. reflexivity.
Qed.

Section Eq.
Context {A : Type} (eqb : A -> A -> bool).

Lemma find_idx_spec (l : list A) x i :
  (exists l1 y l2, l = l1 ++ y :: l2 /\ eqb y x = true /\
     (forall z, In z l1 -> eqb z x = false) /\ find_idx eqb l x i = i + zlen l1) \/
  ((forall z, In z l -> eqb z x = false) /\ find_idx eqb l x i = i + zlen l).
Proof.
  revert i. induction l as [|y l IH]; intros i.
  - right. cbn. split; [contradiction|]. unfold zlen. cbn. lia.
  - cbn [find_idx]. destruct (eqb y x) eqn:E.
    + left. exists [], y, l. split; [reflexivity|]. split; [exact E|]. split; [contradiction|].
      unfold zlen. cbn. lia.
    + destruct (IH (i + 1)) as [(l1 & z & l2 & -> & Hz & Hf & Hi)|[Hf Hi]].
      * left. exists (y :: l1), z, l2. split; [reflexivity|]. split; [exact Hz|]. split.
        -- intros w [<-|Hw]; auto.
        -- rewrite Hi, zlen_cons. lia.
      * right. split.
        -- intros w [<-|Hw]; auto.
        -- rewrite Hi, zlen_cons. lia.
Qed.

Lemma list_remove_ok (l : list A) x : (exists y, In y l /\ eqb y x = true) ->
  exists l', list_remove eqb l x = Ok l' /\ py_remove eqb l x l'.
Proof.
  intros (w & Hw & Ew). unfold list_remove.
  destruct (find_idx_spec l x 0) as [(l1 & y & l2 & -> & Hy & Hf & ->)|[Hf _]].
  - rewrite zlen_app, zlen_cons. pose proof (zlen_nonneg l1). pose proof (zlen_nonneg l2).
    destruct (Z.eqb_spec (0 + zlen l1) (zlen l1 + (zlen l2 + 1))); [lia|].
    unfold vec_erase. rewrite zlen_app, zlen_cons.
    match goal with |- context [if ?c then _ else _] => replace c with true by lia end.
    eexists. split; [reflexivity|]. exists l1, y, l2.
    replace (Z.to_nat (0 + zlen l1 + 1)) with (S (length l1)) by (unfold zlen; lia).
    replace (Z.to_nat (0 + zlen l1)) with (length l1) by (unfold zlen; lia).
    destruct (skipn_S_split l1 y l2 (length l1) eq_refl) as [-> ->]. auto.
  - rewrite (Hf w Hw) in Ew. discriminate.
Qed.

Lemma list_remove_err (l : list A) x : (forall y, In y l -> eqb y x = false) ->
  list_remove eqb l x = Exn ValueError.
Proof.
  intros H. unfold list_remove.
  destruct (find_idx_spec l x 0) as [(l1 & y & l2 & -> & Hy & _)|[_ ->]].
  - rewrite H in Hy; [discriminate|]. apply in_or_app. right. left. reflexivity.
  - destruct (Z.eqb_spec (0 + zlen l) (zlen l)); [reflexivity|lia].
Qed.

Lemma vec_range_nth (l : list A) lo hi r : vec_range l lo hi = Ok r ->
  zlen r = hi - lo /\ forall j, lo <= j < hi -> nth_error l (Z.to_nat j) = nth_error r (Z.to_nat (j - lo)).
Proof.
  unfold vec_range. destruct ((0 <=? lo) && (lo <=? hi) && (hi <=? zlen l)) eqn:E; [|discriminate].
  intros H. injection H as <-. apply andb_prop in E. destruct E as [E E3].
  apply andb_prop in E. destruct E as [E1 E2].
  split.
  - unfold zlen in *. rewrite firstn_length, skipn_length. lia.
  - intros j Hj. rewrite <- (firstn_skipn (Z.to_nat lo) l) at 1.
    assert (Hfl : length (firstn (Z.to_nat lo) l) = Z.to_nat lo).
    { rewrite firstn_length. unfold zlen in *. lia. }
    rewrite nth_error_app2 by lia. rewrite Hfl.
    replace (Z.to_nat j - Z.to_nat lo)%nat with (Z.to_nat (j - lo)) by lia.
    remember (skipn (Z.to_nat lo) l) as r. remember (Z.to_nat (j - lo)) as k.
    assert (Hk : (k < Z.to_nat (hi - lo))%nat) by lia.
    remember (Z.to_nat (hi - lo)) as n. clear - Hk.
    revert n k Hk. induction r as [|x r IH]; intros n k Hk.
    + destruct n; reflexivity.
    + destruct n; [lia|]. destruct k; [reflexivity|]. cbn. apply IH. lia.
Qed.

Lemma nth_enum (l : list A) j y : 0 <= j -> nth_error l (Z.to_nat j) = Some y <-> In (j, y) (enum 0 l).
Proof.
  intros Hj. split; intros H.
  - apply (enum_nth l 0 j y) in H; [|assumption]. exact H.
  - apply enum_in in H. replace (j - 0) with j in H by lia. apply H.
Qed.

Lemma list_index_core wrap (l : list A) x a b :
  (forall z, 0 <= z <= zlen l -> wrap z = z) ->
  (exists k, list_index eqb wrap l x a b = Ok k /\ py_index eqb l x a b k) \/
  (list_index eqb wrap l x a b = Exn ValueError /\ py_not_found eqb l x a b).
Proof.
  intros Hw. unfold list_index, py_index, py_not_found. change (@py_len) with (@zlen).
  pose proof (zlen_nonneg l). rewrite !slice_correction_is_py by assumption.
  set (lo := py_bound a (zlen l)). set (hi := py_bound b (zlen l)).
  assert (0 <= lo <= zlen l) by (apply py_bound_range; assumption).
  assert (0 <= hi <= zlen l) by (apply py_bound_range; assumption).
  destruct (Z.geb_spec lo hi).
  - right. split; [reflexivity|]. intros. lia.
  - destruct (vec_range l lo hi) as [r| | |] eqn:Er;
      try (unfold vec_range in Er;
           replace ((0 <=? lo) && (lo <=? hi) && (hi <=? zlen l)) with true in Er by lia; discriminate).
    cbn [bind]. destruct (vec_range_nth l lo hi r Er) as [Hr Hn].
    destruct (find_idx_spec r x lo) as [(r1 & y & r2 & E & Hy & Hf & ->)|[Hf ->]].
    + left. assert (Hr1 : zlen r = zlen r1 + zlen r2 + 1) by (rewrite E, zlen_app, zlen_cons; lia).
      pose proof (zlen_nonneg r1). pose proof (zlen_nonneg r2).
      rewrite Hw by lia.
      destruct (Z.eqb_spec (lo + zlen r1) hi); [lia|]. eexists. split; [reflexivity|]. split.
      * exists y. split; [lia|]. split; [|exact Hy]. apply nth_enum; [lia|]. rewrite Hn by lia.
        replace (Z.to_nat (lo + zlen r1 - lo)) with (length r1) by (unfold zlen; lia).
        rewrite E, nth_error_app2, Nat.sub_diag by lia. reflexivity.
      * intros j z Hj Hz. apply nth_enum in Hz; [|lia]. rewrite Hn in Hz by lia.
        rewrite E in Hz. rewrite nth_error_app1 in Hz by (unfold zlen in *; lia).
        apply Hf. eapply nth_error_In. exact Hz.
    + right. rewrite Hr. replace (lo + (hi - lo)) with hi by lia. rewrite Hw by lia.
      rewrite Z.eqb_refl. split; [reflexivity|]. intros j y Hj Hy.
      apply nth_enum in Hy; [|lia]. rewrite Hn in Hy by lia. apply Hf. eapply nth_error_In. exact Hy.
Qed.

Lemma list_contains_ok (l : list A) x : list_contains eqb l x = true <-> exists y, In y l /\ eqb y x = true.
Proof.
  induction l as [|y l IH]; cbn [list_contains].
  - split; [discriminate|]. intros (y & [] & _).
  - destruct (eqb y x) eqn:E.
    + split; [|reflexivity]. intros _. exists y. split; [left; reflexivity|exact E].
    + rewrite IH. split; intros (z & Hz & Ez).
      * exists z. split; [right; exact Hz|exact Ez].
      * destruct Hz as [<-|Hz]; [congruence|]. exists z. auto.
Qed.

Lemma list_count_ok (l : list A) x : list_count eqb l x = py_len (filter (fun y => eqb y x) l).
Proof.
  unfold list_count. assert (H : forall c, count_loop eqb l x c = c + py_len (filter (fun y => eqb y x) l)).
  { induction l as [|y l IH]; intros c; cbn [count_loop filter].
    - unfold py_len. cbn. lia.
    - rewrite IH. destruct (eqb y x); unfold py_len; cbn [length]; lia. }
  rewrite H. lia.
Qed.

(** Comparison *)
Lemma eq_loop_ok (l m : list A) : length l = length m ->
  exists r, eq_loop eqb l m = Ok r /\ (r = true <-> Forall2 (fun x y => eqb x y = true) l m).
Proof.
  revert m. induction l as [|x l IH]; intros [|y m] H; try discriminate.
  - exists true. split; [reflexivity|]. split; auto.
  - cbn [eq_loop]. destruct (eqb x y) eqn:E; cbn [negb].
    + destruct (IH m) as (r & Hr & Hiff); [cbn in H; lia|]. exists r. split; [exact Hr|].
      rewrite Hiff. split; intros HH; [constructor; assumption|inversion HH; assumption].
    + exists false. split; [reflexivity|]. split; [discriminate|]. intros HH. inversion HH. congruence.
Qed.

Lemma list_eq_ok (l m : list A) :
  exists r, list_eq eqb false l m = Ok r /\ (r = true <-> Forall2 (fun x y => eqb x y = true) l m).
Proof.
  unfold list_eq. destruct (Z.eqb_spec (zlen l) (zlen m)) as [E|E]; cbn [negb].
  - apply eq_loop_ok. unfold zlen in E. lia.
  - exists false. split; [reflexivity|]. split; [discriminate|]. intros H.
    exfalso. apply E. clear E. unfold zlen. induction H; [reflexivity|]. cbn [length]. lia.
Qed.

Context (gtb : A -> A -> bool) (lt : A -> A -> Prop).
Hypothesis Hgt : forall x y, gtb x y = true <-> lt y x.
Hypothesis Hst : strict_total lt.

Lemma lex_cons_eq x l m : lex_lt lt (x :: l) (x :: m) <-> lex_lt lt l m.
Proof.
  split.
  - intros [(y & m' & E)|(p & a & l' & b & m' & E1 & E2 & H)].
    + left. injection E as ->. eauto.
    + right. destruct p as [|z p]; cbn in E1, E2.
      * injection E1 as -> ->. injection E2 as -> ->. destruct Hst as [Hi _]. destruct (Hi b H).
      * injection E1 as -> ->. injection E2 as ->. exists p, a, l', b, m'. auto.
  - intros [(y & m' & ->)|(p & a & l' & b & m' & -> & -> & H)].
    + left. exists y, m'. reflexivity.
    + right. exists (x :: p), a, l', b, m'. auto.
Qed.

Lemma lex_cons_lt x y l m : lt x y -> lex_lt lt (x :: l) (y :: m) /\ ~ lex_lt lt (y :: m) (x :: l).
Proof.
  intros H. split.
  - right. exists [], x, l, y, m. auto.
  - destruct Hst as (Hi & Ht & _).
    intros [(z & m' & E)|(p & a & l' & b & m' & E1 & E2 & H')].
    + cbn in E. injection E as -> _. exact (Hi _ H).
    + destruct p as [|z p]; cbn in E1, E2.
      * injection E1 as -> ->. injection E2 as -> ->. exact (Hi _ (Ht _ _ _ H H')).
      * injection E1 as -> _. injection E2 as -> _. exact (Hi _ H).
Qed.

Lemma list_gt_ok (l m : list A) : list_gt gtb l m = true <-> lex_lt lt m l.
Proof.
  revert m. induction l as [|x l IH]; intros [|y m].
  - split; [discriminate|]. intros [(z & m' & E)|(p & a & l' & b & m' & E1 & _)];
      [discriminate E|destruct p; discriminate].
  - split; [discriminate|]. intros [(z & m' & E)|(p & a & l' & b & m' & _ & E2 & _)];
      [discriminate E|destruct p; discriminate].
  - cbn. split; [|reflexivity]. intros _. left. exists x, l. reflexivity.
  - cbn [list_gt]. destruct Hst as (Hi & Ht & Htot). destruct (Htot x y) as [H|[->|H]].
    + destruct (gtb x y) eqn:E1; [apply Hgt in E1; destruct (Hi _ (Ht _ _ _ H E1))|].
      replace (gtb y x) with true by (symmetry; apply Hgt; exact H).
      split; [discriminate|]. intros H'. destruct (lex_cons_lt x y l m H) as [_ N]. contradiction.
    + destruct (gtb y y) eqn:E1; [apply Hgt in E1; destruct (Hi _ E1)|].
      rewrite lex_cons_eq. apply IH.
    + replace (gtb x y) with true by (symmetry; apply Hgt; exact H).
      split; [|reflexivity]. intros _. apply (lex_cons_lt y x m l H).
Qed.

Lemma list_ge_ok (l m : list A) : list_ge gtb l m = true <-> lex_lt lt m l \/ l = m.
Proof.
  revert m. induction l as [|x l IH]; intros [|y m].
  - split; [right; reflexivity|reflexivity].
  - split; [discriminate|]. intros [[(z & m' & E)|(p & a & l' & b & m' & _ & E2 & _)]|E];
      [discriminate E|destruct p; discriminate|discriminate].
  - cbn. split; [|reflexivity]. intros _. left. left. exists x, l. reflexivity.
  - cbn [list_ge]. destruct Hst as (Hi & Ht & Htot). destruct (Htot x y) as [H|[->|H]].
    + destruct (gtb x y) eqn:E1; [apply Hgt in E1; destruct (Hi _ (Ht _ _ _ H E1))|].
      replace (gtb y x) with true by (symmetry; apply Hgt; exact H).
      split; [discriminate|]. intros [H'|E].
      * destruct (lex_cons_lt x y l m H) as [_ N]. contradiction.
      * injection E as -> _. destruct (Hi _ H).
    + destruct (gtb y y) eqn:E1; [apply Hgt in E1; destruct (Hi _ E1)|].
      rewrite lex_cons_eq, IH. split; intros [H|H]; auto.
      * right. congruence.
      * right. congruence.
    + replace (gtb x y) with true by (symmetry; apply Hgt; exact H).
      split; [|reflexivity]. intros _. left. apply (lex_cons_lt y x m l H).
Qed.

Lemma lex_strict_total : strict_total (lex_lt lt).
Proof.
  destruct Hst as (Hi & Ht & Htot). split; [|split].
  - intros l H. apply list_gt_ok in H. revert H. induction l as [|x l IH]; [discriminate|].
    cbn. destruct (gtb x x) eqn:E; [apply Hgt in E; destruct (Hi _ E)|exact IH].
  - intros l m k H1 H2. rewrite <- list_gt_ok in *. revert m k H1 H2.
    induction l as [|x l IH]; intros [|y m] [|z k] H1 H2; try discriminate; try reflexivity.
    cbn [list_gt] in *.
    destruct (Htot x y) as [Hxy|[->|Hxy]].
    + replace (gtb y x) with true in H1 by (symmetry; apply Hgt; exact Hxy).
      destruct (Htot y z) as [Hyz|[->|Hyz]].
      * replace (gtb z x) with true by (symmetry; apply Hgt; apply (Ht _ y); assumption). reflexivity.
      * replace (gtb z x) with true by (symmetry; apply Hgt; assumption). reflexivity.
      * destruct (gtb z y) eqn:E; [apply Hgt in E; destruct (Hi _ (Ht _ _ _ E Hyz))|].
        replace (gtb y z) with true in H2 by (symmetry; apply Hgt; exact Hyz). discriminate.
    + destruct (gtb y y) eqn:E; [apply Hgt in E; destruct (Hi _ E)|].
      destruct (Htot y z) as [Hyz|[->|Hyz]].
      * replace (gtb z y) with true by (symmetry; apply Hgt; assumption). reflexivity.
      * rewrite E in *. eapply IH; eassumption.
      * destruct (gtb z y) eqn:E'; [reflexivity|].
        replace (gtb y z) with true in H2 by (symmetry; apply Hgt; exact Hyz). discriminate.
    + destruct (gtb y x) eqn:E; [apply Hgt in E; destruct (Hi _ (Ht _ _ _ E Hxy))|].
      replace (gtb x y) with true in H1 by (symmetry; apply Hgt; exact Hxy). discriminate.
  - intros l. induction l as [|x l IH]; intros [|y m].
    + right. left. reflexivity.
    + left. left. exists y, m. reflexivity.
    + right. right. left. exists x, l. reflexivity.
    + destruct (Htot x y) as [H|[->|H]].
      * left. apply lex_cons_lt. exact H.
      * destruct (IH m) as [H|[->|H]].
        -- left. apply lex_cons_eq. exact H.
        -- right. left. reflexivity.
        -- right. right. apply lex_cons_eq. exact H.
      * right. right. apply lex_cons_lt. exact H.
Qed.
End Eq.

(** Histories *)
Section History.
Context {A : Type} (eqb : A -> A -> bool).

Definition call_of (o : list_op A) : py_call A :=
  match o with
  | OpAppend x => CAppend x | OpInsert i x => CInsert i x | OpPop i => CPop i
  | OpRemove x => CRemove x | OpReverse => CReverse | OpExtend m => CExtend m
  | OpExtendSelf => CExtendSelf | OpSetItem i x => CSetItem i x
  | OpSetSlice a b m => CSetSlice a b m | OpClear => CClear
  end.

Definition result_of (r : res (option A)) : py_result A :=
  match r with Ok (Some x) => RValue x | Ok None => RNone | _ => RError end.

Definition is_ok_or_exn {B} (r : res B) : Prop := match r with Ok _ | Exn _ => True | _ => False end.

(** Slice assignment is only claimed for 0 <= a <= b. *)
Definition op_supported (o : list_op A) : Prop :=
  match o with OpSetSlice a b _ => 0 <= a <= b | _ => True end.

Lemma py_index_dec (l : list A) i : py_index_ok l i \/ ~ py_index_ok l i.
Proof. unfold py_index_ok. lia. Qed.

Lemma in_dec_eqb (l : list A) x :
  (exists y, In y l /\ eqb y x = true) \/ (forall y, In y l -> eqb y x = false).
Proof.
  destruct (list_contains eqb l x) eqn:E.
  - left. apply list_contains_ok. exact E.
  - right. intros y Hy. destruct (eqb y x) eqn:E'; [|reflexivity].
    assert (list_contains eqb l x = true) by (apply list_contains_ok; eauto). congruence.
Qed.

Lemma list_step_ok (l : list A) o : op_supported o ->
  let '(r, l') := list_step eqb l o in
  is_ok_or_exn r /\ py_list_call eqb l (call_of o) (result_of r) l'.
Proof.
  intros Hs. destruct o; cbn [list_step call_of].
  - split; [exact I|]. constructor.
  - rewrite list_insert_ok. split; [exact I|]. constructor.
  - destruct (py_index_dec l i) as [H|H].
    + destruct (list_pop_ok l i H) as (x & l' & -> & P). split; [exact I|]. constructor; assumption.
    + rewrite list_pop_err by assumption. split; [exact I|]. constructor. assumption.
  - destruct (in_dec_eqb l x) as [H|H].
    + destruct (list_remove_ok eqb l x H) as (l' & -> & P). split; [exact I|]. constructor. assumption.
    + rewrite list_remove_err by assumption. split; [exact I|]. constructor. assumption.
  - split; [exact I|]. constructor.
  - rewrite list_extend_ok. split; [exact I|]. constructor.
  - rewrite list_extend_ok. split; [exact I|]. constructor.
  - destruct (py_index_dec l i) as [H|H].
    + destruct (list_set_item_ok l i x H) as (l' & -> & P). split; [exact I|]. constructor; assumption.
    + rewrite list_set_item_err by assumption. split; [exact I|]. constructor. assumption.
  - cbn in Hs. rewrite list_set_slice_ok by assumption. split; [exact I|]. constructor.
  - split; [exact I|]. constructor.
Qed.

Lemma list_run_ok os : Forall op_supported os -> forall l : list A,
  let '(rs, l') := list_run eqb l os in
  Forall is_ok_or_exn rs /\ py_list_history eqb l (map call_of os) (map result_of rs) l'.
Proof.
  induction 1 as [|o os Ho Hos IH]; intros l; cbn [list_run].
  - split; constructor.
  - pose proof (list_step_ok l o Ho) as H. destruct (list_step eqb l o) as [r l1].
    specialize (IH l1). destruct (list_run eqb l1 os) as [rs l2].
    destruct H as [H1 H2]. destruct IH as [I1 I2]. split; [constructor; assumption|].
    cbn [map]. econstructor; eassumption.
Qed.
End History.

(** Python's specification determines result and new contents. *)
Lemma py_remove_unique {A} (eqb : A -> A -> bool) l x l' l'' :
  py_remove eqb l x l' -> py_remove eqb l x l'' -> l' = l''.
Proof.
  intros (a1 & y & a2 & -> & -> & Hy & Ha) (b1 & z & b2 & E & -> & Hz & Hb).
  revert b1 E Ha Hb. induction a1 as [|p a1 IH]; intros [|q b1] E Ha Hb; cbn in E |- *.
  - congruence.
  - injection E as -> E. rewrite Hb in Hy by (left; reflexivity). discriminate.
  - injection E as -> E. rewrite Ha in Hz by (left; reflexivity). discriminate.
  - injection E as -> E. f_equal. apply IH; auto.
    + intros w Hw. apply Ha. right. exact Hw.
    + intros w Hw. apply Hb. right. exact Hw.
Qed.

Lemma app_split_unique {A} (l1 m1 l2 m2 : list A) x y : l1 ++ x :: l2 = m1 ++ y :: m2 ->
  py_len l1 = py_len m1 -> l1 = m1 /\ x = y /\ l2 = m2.
Proof.
  revert m1. induction l1 as [|a l1 IH]; intros [|b m1] E H; unfold py_len in H; cbn in H, E; try lia.
  - injection E as -> ->. auto.
  - injection E as -> E. destruct (IH m1 E) as (-> & -> & ->); [unfold py_len; lia|]. auto.
Qed.

Lemma py_list_call_det {A} (eqb : A -> A -> bool) l c r1 l1 r2 l2 :
  py_list_call eqb l c r1 l1 -> py_list_call eqb l c r2 l2 -> r1 = r2 /\ l1 = l2.
Proof.
  intros H1 H2. destruct H1; inversion H2; subst; try (split; reflexivity); try contradiction;
    repeat match goal with
    | H : py_pop _ _ _ _ |- _ => destruct H as (? & ? & ? & -> & ?)
    | H : py_set_item _ _ _ _ |- _ => destruct H as (? & ? & ? & ? & ? & ->)
    end;
    try match goal with
    | E1 : ?l = ?a1 ++ ?x :: ?a2, E2 : ?l = ?b1 ++ ?y :: ?b2 |- _ =>
        let E := fresh in
        assert (E : a1 ++ x :: a2 = b1 ++ y :: b2) by congruence;
        apply app_split_unique in E; [destruct E as (-> & -> & ->); auto | congruence]
    end;
    try (split; [reflexivity|]; eapply py_remove_unique; eassumption);
    exfalso;
    match goal with
    | Hr : py_remove _ _ _ _, Hn : forall y, In y _ -> _ |- _ =>
        destruct Hr as (? & ? & ? & -> & _ & Hr & _); rewrite Hn in Hr;
        [discriminate | apply in_or_app; right; left; reflexivity]
    end.
Qed.

Lemma py_list_history_det {A} (eqb : A -> A -> bool) cs : forall l rs1 l1 rs2 l2,
  py_list_history eqb l cs rs1 l1 -> py_list_history eqb l cs rs2 l2 -> rs1 = rs2 /\ l1 = l2.
Proof.
  induction cs as [|c cs IH]; intros l rs1 l1 rs2 l2 H1 H2; inversion H1; inversion H2; subst.
  - auto.
  - match goal with
    | Ha : py_list_call _ l c ?r ?a, Hb : py_list_call _ l c ?r' ?b |- _ =>
        lazymatch a with b => fail | _ => destruct (py_list_call_det eqb _ _ _ _ _ _ Ha Hb) as [-> ->] end
    end.
    match goal with
    | Ha : py_list_history _ ?a cs ?r ?x, Hb : py_list_history _ ?a cs ?r' ?y |- _ =>
        lazymatch r with r' => fail | _ => destruct (IH _ _ _ _ _ Ha Hb) as [-> ->] end
    end. auto.
Qed.

(** Tuples *)
Lemma tuple_init_loop_ok {A} (l : list A) : tuple_init_loop (length l) l = Ok l.
Proof.
  induction l as [|x l IH]; [reflexivity|]. cbn [length tuple_init_loop]. cbn [rd nth_error bind skipn].
  unfold rd. cbn [nth_error bind]. rewrite IH. reflexivity.
Qed.

Lemma tuple_range_loop_ok {A} n (x : A) l : tuple_range_loop n (x :: l) = Ok (repeat x n).
Proof.
  induction n as [|n IH]; [reflexivity|]. cbn [tuple_range_loop]. unfold rd. cbn [nth_error bind].
  rewrite IH. reflexivity.
Qed.

Lemma tuple_get_slice_ok {A} (l : list A) a b s : 0 < s -> zlen l + s <= two63 ->
  py_slice l a b s <> [] ->
  tuple_get_slice (Some l) a b s = Ok (Some (py_slice l a b s)).
Proof.
  intros Hs H63. unfold tuple_get_slice, py_slice, deref. cbn [bind].
  destruct (Z.gtb_spec s 0); [|lia].
  pose proof (zlen_nonneg l). rewrite !slice_correction_is_py by assumption. change (@py_len) with (@zlen).
  set (lo := py_bound a (zlen l)). set (hi := py_bound b (zlen l)).
  assert (0 <= lo <= zlen l) by (apply py_bound_range; assumption).
  assert (0 <= hi <= zlen l) by (apply py_bound_range; assumption).
  change (map snd (filter (fun p => py_selected lo hi s (fst p)) (enum 0 l))) with (sel l lo hi s).
  intros Hne. destruct (Z.leb_spec hi lo) as [Hle|Hle].
  - rewrite sel_empty in Hne by assumption. congruence.
  - destruct (Z.eqb_spec s 1) as [->|Hs1].
    + rewrite idx_loop_ok by (unfold zlen in *; lia). reflexivity.
    + unfold chk64, int64b.
      replace ((- two63 <=? hi - lo + s - 1) && (hi - lo + s - 1 <? two63)) with true
        by (unfold two63 in *; lia).
      cbn [bind]. rewrite idx_loop_ok by (unfold zlen in *; lia). cbn [bind].
      rewrite (sel_len l hi s Hs) with (n := Z.to_nat (hi - lo)) by lia.
      destruct (Z.ltb_spec lo hi); [|lia].
      rewrite Z.quot_div_nonneg by lia. rewrite Z.leb_refl. reflexivity.
Qed.

Lemma tuple_get_slice_empty {A} (l : list A) a b s : 0 < s ->
  py_slice l a b s = [] -> tuple_get_slice (Some l) a b s = Ok None.
Proof.
  intros Hs. unfold tuple_get_slice, py_slice, deref. cbn [bind].
  destruct (Z.gtb_spec s 0); [|lia].
  pose proof (zlen_nonneg l). rewrite !slice_correction_is_py by assumption. change (@py_len) with (@zlen).
  set (lo := py_bound a (zlen l)). set (hi := py_bound b (zlen l)).
  assert (0 <= lo <= zlen l) by (apply py_bound_range; assumption).
  assert (0 <= hi <= zlen l) by (apply py_bound_range; assumption).
  change (map snd (filter (fun p => py_selected lo hi s (fst p)) (enum 0 l))) with (sel l lo hi s).
  intros He. destruct (Z.leb_spec hi lo); [reflexivity|].
  destruct (nth_error_some_lt l lo) as [x Hx]; [lia|].
  rewrite (sel_step l lo hi s x) in He by (assumption || lia). discriminate.
Qed.
