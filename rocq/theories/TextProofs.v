(** Proofs about the text model. *)
From Verif Require Import Base SeqModel SeqSpec SeqProofs TextModel TextSpec.
Ltac Zify.zify_post_hook ::= Z.to_euclidean_division_equations.

(** ** Occurrences *)

Lemma occurs_nonneg {A} (s t : list A) k : occurs_at s t k -> 0 <= k /\ k + zlen t <= zlen s.
Proof.
  intros (p & q & -> & <-). unfold py_len, zlen. rewrite !app_length. lia.
Qed.

Lemma occurs_firstn {A} (s t : list A) k :
  occurs_at s t k <->
  0 <= k /\ k + zlen t <= zlen s /\ firstn (length t) (skipn (Z.to_nat k) s) = t.
Proof.
  split.
  - intros H. pose proof (occurs_nonneg _ _ _ H). destruct H as (p & q & -> & Hk).
    repeat split; try lia. unfold py_len in Hk.
    replace (Z.to_nat k) with (length p) by lia.
    rewrite skipn_app, skipn_all, Nat.sub_diag. simpl.
    rewrite firstn_app, firstn_all, Nat.sub_diag. simpl. apply app_nil_r.
  - intros (H0 & Hle & Hf). exists (firstn (Z.to_nat k) s), (skipn (length t) (skipn (Z.to_nat k) s)).
    split.
    + rewrite <- Hf at 1. rewrite firstn_skipn, firstn_skipn. reflexivity.
    + unfold py_len. rewrite firstn_length. unfold zlen in Hle. lia.
Qed.

Lemma occurs_cons (s : list Z) c t k : 0 <= k ->
  occurs_at s (c :: t) k <-> nth_error s (Z.to_nat k) = Some c /\ occurs_at s t (k + 1).
Proof.
  intros Hk. split.
  - intros (p & q & -> & <-). unfold py_len. split.
    + rewrite nth_error_app2 by lia. rewrite Nat2Z.id, Nat.sub_diag. reflexivity.
    + exists (p ++ [c]), q. rewrite <- app_assoc. split; [reflexivity|].
      unfold py_len. rewrite app_length. simpl. lia.
  - intros (Hn & p & q & -> & Hp). unfold py_len in Hp.
    assert (Hlt : (Z.to_nat k < length p)%nat) by lia.
    rewrite nth_error_app1 in Hn by lia.
    destruct (nth_error_split _ _ Hn) as (l1 & l2 & -> & Hl1).
    rewrite app_length in Hp. simpl in Hp.
    assert (length l2 = 0%nat) by lia. destruct l2; [|discriminate].
    exists l1, q. rewrite <- app_assoc. split; [reflexivity|unfold py_len; lia].
Qed.

Lemma memeq_ok t : forall (s : list Z) p, 0 <= p -> p + zlen t <= zlen s ->
  exists b, memeq s p t = Ok b /\ (b = true <-> occurs_at s t p).
Proof.
  induction t as [|c t IH]; intros s p Hp Hle.
  - exists true. split; [reflexivity|]. split; [|tauto]. intros _.
    apply occurs_firstn. repeat split; try lia.
  - rewrite zlen_cons in Hle. pose proof (zlen_nonneg t).
    destruct (nth_error_some_lt s p ltac:(lia)) as (x & Hx).
    destruct (IH s (p + 1) ltac:(lia) ltac:(lia)) as (b & Hb & Hiff).
    exists ((x =? c) && b). split.
    + simpl. rewrite (rdz_some _ _ _ Hp Hx). simpl. rewrite Hb. reflexivity.
    + rewrite andb_true_iff, occurs_cons by lia. rewrite Hiff, Z.eqb_eq, Hx.
      split; intros [H1 H2]; split; auto; congruence.
Qed.

Lemma memchr_ok fuel : forall (s : list Z) p e c, 0 <= p -> e <= zlen s -> (Z.to_nat (e - p) <= fuel)%nat ->
  (exists i, memchr fuel s p e c = Ok (Some i) /\ p <= i < e /\ nth_error s (Z.to_nat i) = Some c /\
             forall j, p <= j < i -> nth_error s (Z.to_nat j) <> Some c) \/
  (memchr fuel s p e c = Ok None /\ forall j, p <= j < e -> nth_error s (Z.to_nat j) <> Some c).
Proof.
  induction fuel as [|fuel IH]; intros s p e c Hp He Hf.
  - right. simpl. destruct (Z.ltb_spec p e); [lia|]. split; [reflexivity|intros; lia].
  - simpl. destruct (Z.ltb_spec p e) as [Hlt|]; [|right; split; [reflexivity|intros; lia]].
    destruct (nth_error_some_lt s p ltac:(lia)) as (x & Hx).
    rewrite (rdz_some _ _ _ Hp Hx). simpl.
    destruct (Z.eqb_spec x c) as [->|Hne].
    + left. exists p. repeat split; auto; try lia.
    + destruct (IH s (p + 1) e c ltac:(lia) ltac:(lia) ltac:(lia)) as [(i & Hm & Hr & Hn & Hmin)|(Hm & Hmin)].
      * left. exists i. repeat split; auto; try lia. intros j Hj.
        destruct (Z.eq_dec j p) as [->|]; [congruence|apply Hmin; lia].
      * right. split; [exact Hm|]. intros j Hj.
        destruct (Z.eq_dec j p) as [->|]; [congruence|apply Hmin; lia].
Qed.

Lemma memmatch_loop_ok fuel : forall (s : list Z) p e c t, 0 <= p -> e + zlen (c :: t) <= zlen s + 1 ->
  (Z.to_nat (e - p) < fuel)%nat -> 
  (exists i, memmatch_loop fuel s p e (c :: t) c = Ok (Some i) /\ p <= i < e /\ occurs_at s (c :: t) i /\
             forall j, p <= j < i -> ~ occurs_at s (c :: t) j) \/
  (memmatch_loop fuel s p e (c :: t) c = Ok None /\ forall j, p <= j < e -> ~ occurs_at s (c :: t) j).
Proof.
  induction fuel as [|fuel IH]; intros s p e c t Hp He Hf; [lia|].
  pose proof He as He'. rewrite zlen_cons in He'. pose proof (zlen_nonneg t).
  cbn [memmatch_loop].
  destruct (memchr_ok (length s) s p e c Hp ltac:(lia) ltac:(unfold zlen in *; lia))
    as [(i & Hm & Hr & Hn & Hmin)|(Hm & Hmin)]; rewrite Hm; cbn [bind].
  - destruct (memeq_ok (c :: t) s i ltac:(lia) ltac:(lia)) as (b & Hb & Hiff).
    rewrite Hb. cbn [bind]. destruct b.
    + left. exists i. repeat split; try lia. { apply Hiff; reflexivity. }
      intros j Hj Ho. apply occurs_cons in Ho; [|lia]. apply (Hmin j); tauto.
    + assert (Hno : ~ occurs_at s (c :: t) i) by (intros Ho; apply Hiff in Ho; discriminate).
      assert (Hbefore : forall j, p <= j < i + 1 -> ~ occurs_at s (c :: t) j).
      { intros j Hj Ho. destruct (Z.eq_dec j i) as [->|]; [auto|].
        apply occurs_cons in Ho; [|lia]. apply (Hmin j); [lia|tauto]. }
      destruct (IH s (i + 1) e c t ltac:(lia) He ltac:(lia)) as [(k & Hk & Hkr & Hko & Hkm)|(Hk & Hkm)].
      * left. exists k. repeat split; auto; try lia. intros j Hj.
        destruct (Z.lt_ge_cases j (i + 1)); [apply Hbefore; lia|apply Hkm; lia].
      * right. split; [exact Hk|]. intros j Hj.
        destruct (Z.lt_ge_cases j (i + 1)); [apply Hbefore; lia|apply Hkm; lia].
  - right. split; [reflexivity|]. intros j Hj Ho. apply occurs_cons in Ho; [|lia].
    apply (Hmin j); tauto.
Qed.

(** find returns the least occurrence at or after [pos], or npos if there is none. *)
Lemma sv_find_ok (s t : list Z) pos : 0 <= pos -> zlen s < two63 ->
  (exists i, sv_find s t pos = Ok i /\ i <> npos /\ pos <= i /\ occurs_at s t i /\
             forall j, pos <= j -> occurs_at s t j -> i <= j) \/
  (sv_find s t pos = Ok npos /\ forall j, pos <= j -> ~ occurs_at s t j).
Proof.
  intros Hp Hs. unfold sv_find.
  assert (Hnp : forall i, occurs_at s t i -> i <> npos).
  { intros i Ho. apply occurs_nonneg in Ho. pose proof (zlen_nonneg t). unfold npos, two63, two64 in *. lia. }
  destruct (Z.eqb_spec (zlen s) 0) as [Hz|Hz]; cbn [orb].
  - assert (s = []) as -> by (destruct s; [reflexivity|unfold zlen in Hz; simpl in Hz; lia]).
    cbn [andb]. destruct (Z.eqb_spec pos 0) as [->|Hp0]; cbn [andb].
    + destruct (Z.eqb_spec (zlen t) 0) as [Ht|Ht].
      * left. exists 0. assert (t = []) as -> by (destruct t; [reflexivity|unfold zlen in Ht; simpl in Ht; lia]).
        repeat split; try lia; try discriminate.
        exists [], []. split; reflexivity.
      * right. split; [reflexivity|]. intros j _ Ho. apply occurs_nonneg in Ho.
        pose proof (zlen_nonneg t). change (zlen (@nil Z)) with 0 in Ho. lia.
    + right. split; [reflexivity|]. intros j Hj Ho. apply occurs_nonneg in Ho.
      pose proof (zlen_nonneg t). change (zlen (@nil Z)) with 0 in Ho. lia.
  - cbn [andb]. rewrite Z.gtb_ltb. destruct (Z.ltb_spec (zlen s) pos) as [Hgt|Hle].
    + right. split; [reflexivity|]. intros j Hj Ho. apply occurs_nonneg in Ho.
      pose proof (zlen_nonneg t). lia.
    + unfold memmatch. destruct t as [|c t].
      * left. exists pos. cbn [bind]. assert (occurs_at s [] pos).
        { apply occurs_firstn. repeat split; try lia. change (zlen (@nil Z)) with 0. lia. }
        repeat split; auto; try lia.
      * destruct (Z.ltb_spec (zlen s - pos) (zlen (c :: t))) as [Hsh|Hlong].
        -- right. split; [reflexivity|]. intros j Hj Ho. apply occurs_nonneg in Ho. lia.
        -- destruct (memmatch_loop_ok (S (length s)) s pos (pos + (zlen s - pos) - zlen (c :: t) + 1) c t)
             as [(i & Hm & Hr & Ho & Hmin)|(Hm & Hmin)]; try lia.
           { rewrite zlen_cons. unfold zlen. lia. }
           ++ left. exists i. rewrite Hm. cbn [bind]. repeat split; auto; try lia.
              intros j Hj Hoj. destruct (Z.lt_ge_cases j i); [|lia]. exfalso. apply (Hmin j); [lia|auto].
           ++ right. rewrite Hm. split; [reflexivity|]. intros j Hj Ho.
              apply (Hmin j); [|exact Ho]. apply occurs_nonneg in Ho. lia.
Qed.

(** A pointer below 2^64 *)
Lemma wrapu_small z : 0 <= z < two64 -> wrapu64 z = z.
Proof. intros. unfold wrapu64. apply Z.mod_small; auto. Qed.

Lemma py_find_ok (s t : list Z) a b : 0 <= a -> int64 a -> int64 b -> zlen s < two63 ->
  zlen s + zlen t < two64 -> 
  exists r, py_find s t a b = Ok r /\ py_find_in s t a b r.
Proof.
  intros Ha Hia Hib Hs Hst. unfold py_find. rewrite slice_correction_is_py by apply zlen_nonneg.
  unfold py_find_in. change (@py_len) with (@zlen) in *.
  destruct (Z.ltb_spec a 0); [lia|].
  rewrite wrapu_small by (unfold int64, two63, two64 in *; lia).
  pose proof (py_bound_range b (zlen s) (zlen_nonneg s)) as Hb.
  pose proof (zlen_nonneg t).
  destruct (sv_find_ok s t a Ha Hs) as [(i & Hf & Hnp & Hge & Ho & Hmin)|(Hf & Hno)]; rewrite Hf; cbn [bind].
  - destruct (Z.eqb_spec i npos); [congruence|]. cbn [orb].
    pose proof (occurs_nonneg _ _ _ Ho).
    rewrite wrapu_small by lia. rewrite !Z.gtb_ltb.
    destruct (Z.ltb_spec (py_bound b (zlen s)) i); cbn [orb].
    + eexists; split; [reflexivity|]. right. split; [reflexivity|].
      intros k (Hk1 & Hk2 & Hk3). specialize (Hmin k Hk1 Hk3). lia.
    + destruct (Z.ltb_spec (py_bound b (zlen s)) (i + zlen t)).
      * eexists; split; [reflexivity|]. right. split; [reflexivity|].
        intros k (Hk1 & Hk2 & Hk3). specialize (Hmin k Hk1 Hk3). lia.
      * eexists; split; [reflexivity|]. left. split; [repeat split; auto; lia|].
        intros k (Hk1 & Hk2 & Hk3). auto.
  - rewrite Z.eqb_refl. cbn [orb]. eexists; split; [reflexivity|]. right. split; [reflexivity|].
    intros k (Hk1 & Hk2 & Hk3). apply (Hno k); auto.
Qed.

Lemma contains_ok (s t : list Z) : zlen s < two63 ->
  exists b, contains s t = Ok b /\ (b = true <-> exists p q, s = p ++ t ++ q).
Proof.
  intros Hs. unfold contains.
  destruct (sv_find_ok s t 0 ltac:(lia) Hs) as [(i & Hf & Hnp & Hge & Ho & Hmin)|(Hf & Hno)];
    rewrite Hf; cbn [bind]; eexists; (split; [reflexivity|]).
  - destruct (Z.eqb_spec i npos); [congruence|]. split; [|reflexivity].
    intros _. destruct Ho as (p & q & -> & _). eauto.
  - rewrite Z.eqb_refl. split; [discriminate|]. intros (p & q & ->).
    exfalso. apply (Hno (py_len p)); [apply py_len_nonneg|]. exists p, q. auto.
Qed.

(** rfind *)
Lemma find_end_loop_ok k : forall (s : list Z) e t, Z.of_nat k + zlen t <= zlen s -> Z.of_nat k < e ->
  (exists i, find_end_loop k s e t = Ok i /\ i <> e /\ i <= Z.of_nat k /\ occurs_at s t i /\
             forall j, j <= Z.of_nat k -> occurs_at s t j -> j <= i) \/
  (find_end_loop k s e t = Ok e /\ forall j, j <= Z.of_nat k -> ~ occurs_at s t j).
Proof.
  induction k as [|k IH]; intros s e t Hk He.
  - cbn [find_end_loop]. change (Z.of_nat 0) with 0 in *. destruct (memeq_ok t s 0 ltac:(lia) ltac:(lia)) as (b & Hb & Hiff).
    rewrite Hb. cbn [bind]. destruct b.
    + left. exists 0. repeat split; try lia. apply Hiff; reflexivity.
    + right. split; [reflexivity|]. intros j Hj Ho. pose proof (occurs_nonneg _ _ _ Ho).
      assert (j = 0) as -> by lia. apply Hiff in Ho. discriminate.
  - destruct (memeq_ok t s (Z.of_nat (S k)) ltac:(lia) ltac:(lia)) as (b & Hb & Hiff).
    cbn [find_end_loop]. rewrite Hb. cbn [bind]. destruct b.
    + left. exists (Z.of_nat (S k)). repeat split; try lia. apply Hiff; reflexivity.
    + assert (Hno : ~ occurs_at s t (Z.of_nat (S k))) by (intros Ho; apply Hiff in Ho; discriminate).
      destruct (IH s e t ltac:(lia) ltac:(lia)) as [(i & Hi & Hne & Hle & Ho & Hmax)|(Hi & Hmax)].
      * left. exists i. repeat split; auto; try lia. intros j Hj Hoj.
        destruct (Z.eq_dec j (Z.of_nat (S k))) as [->|]; [tauto|]. apply Hmax; auto; lia.
      * right. split; [exact Hi|]. intros j Hj Hoj.
        destruct (Z.eq_dec j (Z.of_nat (S k))) as [->|]; [tauto|]. apply (Hmax j); auto; lia.
Qed.

Lemma sv_rfind_ok (s t : list Z) pos : 0 <= pos -> zlen s < two63 ->
  (exists i, sv_rfind s t pos = Ok i /\ i <> npos /\ i <= pos /\ occurs_at s t i /\
             forall j, j <= pos -> occurs_at s t j -> j <= i) \/
  (sv_rfind s t pos = Ok npos /\ forall j, j <= pos -> ~ occurs_at s t j).
Proof.
  intros Hp Hs. unfold sv_rfind. pose proof (zlen_nonneg t). pose proof (zlen_nonneg s).
  destruct (Z.ltb_spec (zlen s) (zlen t)).
  { right. split; [reflexivity|]. intros j Hj Ho. apply occurs_nonneg in Ho. lia. }
  destruct (Z.eqb_spec (zlen t) 0) as [Ht|Ht].
  - left. assert (t = []) as -> by (destruct t; [reflexivity|unfold zlen in Ht; simpl in Ht; lia]).
    exists (Z.min (zlen s) pos). repeat split; try lia.
    + unfold npos, two63, two64 in *. lia.
    + apply occurs_firstn. repeat split; try lia.
    + intros j Hj Ho. apply occurs_nonneg in Ho. lia.
  - set (last := Z.min (zlen s - zlen t) pos + zlen t).
    destruct (find_end_loop_ok (Z.to_nat (last - zlen t)) s last t) as [(i & Hi & Hne & Hle & Ho & Hmax)|(Hi & Hmax)];
      try (unfold last; lia); rewrite Hi; cbn [bind].
    + left. exists i. destruct (Z.eqb_spec i last); [congruence|]. pose proof (occurs_nonneg _ _ _ Ho).
      repeat split; auto; try (unfold npos, two63, two64, last in *; lia).
      intros j Hj Hoj. apply Hmax; auto. pose proof (occurs_nonneg _ _ _ Hoj). unfold last. lia.
    + right. rewrite Z.eqb_refl. split; [reflexivity|]. intros j Hj Ho. apply (Hmax j); auto.
      pose proof (occurs_nonneg _ _ _ Ho). unfold last. lia.
Qed.

(** ** Substrings by position *)
Lemma skipn_skipn {A} i j (l : list A) : skipn i (skipn j l) = skipn (i + j) l.
Proof.
  revert l. induction j as [|j IH]; intros l; [rewrite Nat.add_0_r; reflexivity|].
  destruct l as [|x l]; [rewrite !skipn_nil; reflexivity|].
  rewrite Nat.add_succ_r. cbn. apply IH.
Qed.

Definition zsub {A} (s : list A) (a b : Z) : list A :=
  firstn (Z.to_nat (b - a)) (skipn (Z.to_nat a) s).

Lemma vec_range_zsub {A} (s : list A) a b : 0 <= a <= b -> b <= zlen s ->
  vec_range s a b = Ok (zsub s a b).
Proof.
  intros H1 H2. unfold vec_range, zsub.
  replace ((0 <=? a) && (a <=? b) && (b <=? zlen s)) with true by lia. reflexivity.
Qed.

Lemma zlen_zsub {A} (s : list A) a b : 0 <= a <= b -> b <= zlen s -> zlen (zsub s a b) = b - a.
Proof. intros. unfold zsub, zlen in *. rewrite firstn_length, skipn_length. lia. Qed.

Lemma zsub_split {A} (s : list A) a b c : 0 <= a <= b -> b <= c ->
  zsub s a c = zsub s a b ++ zsub s b c.
Proof.
  intros H1 H2. unfold zsub.
  rewrite <- (firstn_skipn (Z.to_nat (b - a)) (skipn (Z.to_nat a) s)) at 1.
  replace (skipn (Z.to_nat b) s) with (skipn (Z.to_nat (b - a)) (skipn (Z.to_nat a) s)).
  2:{ rewrite skipn_skipn. f_equal. lia. }
  set (u := skipn (Z.to_nat a) s).
  rewrite firstn_app.
  destruct (Nat.le_gt_cases (Z.to_nat (b - a)) (length u)) as [Hl|Hl].
  - rewrite firstn_firstn. replace (Nat.min (Z.to_nat (c - a)) (Z.to_nat (b - a))) with (Z.to_nat (b - a)) by lia.
    f_equal. f_equal. rewrite firstn_length. lia.
  - rewrite (skipn_all2 u) by lia. rewrite !firstn_nil, !app_nil_r.
    rewrite firstn_firstn. f_equal. lia.
Qed.

Lemma zsub_all {A} (s : list A) : zsub s 0 (zlen s) = s.
Proof. unfold zsub, zlen. simpl. rewrite Z.sub_0_r, Nat2Z.id. apply firstn_all. Qed.

Lemma zsub_nil {A} (s : list A) a : zsub s a a = [].
Proof. unfold zsub. rewrite Z.sub_diag. reflexivity. Qed.

Lemma zsub_length {A} (s : list A) a b : 0 <= a <= b -> b <= zlen s ->
  length (zsub s a b) = Z.to_nat (b - a).
Proof. intros. pose proof (zlen_zsub s a b). unfold zlen in *. lia. Qed.

Lemma occurs_zsub {A} (s t : list A) k : occurs_at s t k <->
  0 <= k /\ k + zlen t <= zlen s /\ zsub s k (k + zlen t) = t.
Proof.
  rewrite occurs_firstn. unfold zsub. replace (Z.to_nat (k + zlen t - k)) with (length t) by (unfold zlen; lia).
  tauto.
Qed.

Lemma zsub_zsub {A} (s : list A) a b i j : 0 <= a <= b -> b <= zlen s -> 0 <= i <= j -> a + j <= b ->
  zsub (zsub s a b) i j = zsub s (a + i) (a + j).
Proof.
  intros H1 H2 H3 H4. unfold zsub.
  rewrite skipn_firstn_comm, firstn_firstn, skipn_skipn. f_equal; [lia|f_equal; lia].
Qed.

Lemma occurs_window {A} (s t : list A) a b k : 0 <= a <= b -> b <= zlen s ->
  occurs_at (zsub s a b) t k <-> 0 <= k /\ a + k + zlen t <= b /\ occurs_at s t (a + k).
Proof.
  intros H1 H2. pose proof (zlen_nonneg t). rewrite !occurs_zsub, zlen_zsub by lia. split.
  - intros (Hk & Hle & Hz). rewrite zsub_zsub in Hz by lia.
    repeat split; try lia. rewrite <- Hz at 2. f_equal; lia.
  - intros (Hk & Hle & Hk' & Hle' & Hz). repeat split; try lia.
    rewrite zsub_zsub by lia. rewrite <- Hz at 2. f_equal; lia.
Qed.

Lemma absent_occurs {A} (s t : list A) : absent s t <-> forall k, ~ occurs_at s t k.
Proof.
  split.
  - intros H k (p & q & E & _). apply (H p q E).
  - intros H p q E. apply (H (py_len p)). exists p, q. auto.
Qed.

Lemma first_split_window {A} (s t : list A) a b i : 0 <= a <= b -> b <= zlen s ->
  a <= i -> i + zlen t <= b -> occurs_at s t i ->
  (forall j, a <= j -> occurs_at s t j -> i <= j) ->
  first_split (zsub s a b) t (zsub s a i) (zsub s (i + zlen t) b).
Proof.
  intros H1 H2 H3 H4 Ho Hmin. pose proof (zlen_nonneg t). split.
  - rewrite (zsub_split s a i b) by lia. rewrite (zsub_split s i (i + zlen t) b) by lia.
    apply occurs_zsub in Ho. destruct Ho as (_ & _ & ->). reflexivity.
  - intros p q E. assert (Hoc : occurs_at (zsub s a b) t (py_len p)) by (exists p, q; auto).
    apply occurs_window in Hoc; [|lia|lia]. destruct Hoc as (_ & Hle & Ho').
    pose proof (py_len_nonneg p) as Hpl. specialize (Hmin (a + py_len p) ltac:(lia) Ho').
    rewrite zsub_length by lia. unfold py_len in *. lia.
Qed.

Lemma absent_window {A} (s t : list A) a b : 0 <= a <= b -> b <= zlen s ->
  (forall j, a <= j -> j + zlen t <= b -> ~ occurs_at s t j) -> absent (zsub s a b) t.
Proof.
  intros H1 H2 H. apply absent_occurs. intros k Ho. apply occurs_window in Ho; [|lia|lia].
  destruct Ho as (Hk & Hle & Ho). apply (H (a + k)); auto; lia.
Qed.

Lemma py_window_zsub {A} (s : list A) a b :
  py_window s a b = zsub s (py_bound a (zlen s)) (py_bound b (zlen s)).
Proof.
  unfold py_window, py_slice. change (@py_len) with (@zlen) in *.
  pose proof (py_bound_range a (zlen s) (zlen_nonneg s)). pose proof (py_bound_range b (zlen s) (zlen_nonneg s)).
  fold (sel s (py_bound a (zlen s)) (py_bound b (zlen s)) 1).
  destruct (Z.le_gt_cases (py_bound a (zlen s)) (py_bound b (zlen s))).
  - apply sel_one; lia.
  - rewrite sel_empty by lia. unfold zsub.
    replace (Z.to_nat (py_bound b (zlen s) - py_bound a (zlen s))) with 0%nat by lia. reflexivity.
Qed.

(** ** count *)
Lemma nonempty_len {A} (t : list A) : t <> [] -> 0 < zlen t.
Proof. destruct t; [congruence|]. intros _. rewrite zlen_cons. pose proof (zlen_nonneg t). lia. Qed.

Lemma wraps_small z : int64 z -> wraps64 z = z.
Proof. intros H. unfold wraps64, int64, two63, two64 in *. rewrite Z.mod_small; lia. Qed.

Lemma wraps_npos : wraps64 npos = -1.
Proof. reflexivity. Qed.

Lemma absent_empty {A} (t : list A) : t <> [] -> absent [] t.
Proof. intros H p q E. symmetry in E. apply app_eq_nil in E. destruct E as [_ E]. apply app_eq_nil in E. tauto. Qed.

Lemma count_loop_ok (s x : list Z) hi : x <> [] -> zlen s < two63 -> hi <= zlen s ->
  (forall k, k <= hi < k + zlen x -> ~ occurs_at s x k) ->
  forall fuel c ret, 0 <= c <= hi -> (Z.to_nat (hi - c) <= fuel)%nat ->
  exists n, count_loop fuel s x c hi ret = Ok (ret + n) /\ py_count x (zsub s c hi) n.
Proof.
  intros Hx Hs Hhi Hstr. pose proof (nonempty_len x Hx) as Hlx.
  induction fuel as [|fuel IH]; intros c ret Hc Hf; cbn [count_loop].
  - destruct (Z.ltb_spec c hi); [lia|]. exists 0. rewrite Z.add_0_r. split; [reflexivity|].
    assert (c = hi) as -> by lia. rewrite zsub_nil. constructor. apply absent_empty; auto.
  - destruct (Z.ltb_spec c hi) as [Hlt|].
    2:{ exists 0. rewrite Z.add_0_r. split; [reflexivity|].
        assert (c = hi) as -> by lia. rewrite zsub_nil. constructor. apply absent_empty; auto. }
    rewrite wrapu_small by (unfold two63, two64 in *; lia).
    destruct (sv_find_ok s x c ltac:(lia) Hs) as [(i & Hf' & Hnp & Hge & Ho & Hmin)|(Hf' & Hno)];
      rewrite Hf'; cbn [bind].
    + pose proof (occurs_nonneg _ _ _ Ho).
      rewrite wraps_small by (unfold int64, two63 in *; lia). rewrite Z.gtb_ltb.
      destruct (Z.ltb_spec hi i); cbn [orb].
      * exists 0. rewrite Z.add_0_r. split; [reflexivity|]. constructor.
        apply absent_window; try lia. intros j Hj Hj' Hoj. specialize (Hmin j Hj Hoj). lia.
      * destruct (Z.eqb_spec i (-1)); [lia|].
        assert (i + zlen x <= hi). { destruct (Z.le_gt_cases (i + zlen x) hi); auto. exfalso. apply (Hstr i); auto; lia. }
        destruct (IH (i + zlen x) (ret + 1) ltac:(lia) ltac:(lia)) as (m & Hn & Hpn).
        exists (m + 1). split; [rewrite Hn; f_equal; lia|].
        apply (pc_some x (zsub s c hi) (zsub s c i) (zsub s (i + zlen x) hi)); auto.
        apply first_split_window; auto; lia.
    + rewrite wraps_npos. rewrite Z.eqb_refl, orb_true_r. exists 0. rewrite Z.add_0_r. split; [reflexivity|].
      constructor. apply absent_window; try lia. intros j Hj _. auto.
Qed.

Lemma text_count_ok (s x : list Z) a b fuel : x <> [] -> zlen s < two63 ->
  (length s <= fuel)%nat ->
  (forall k, k <= py_bound b (zlen s) < k + zlen x -> ~ occurs_at s x k) ->
  exists n, text_count fuel s x a b = Ok n /\ py_count x (py_window s a b) n.
Proof.
  intros Hx Hs Hf Hstr. unfold text_count. rewrite !slice_correction_is_py by apply zlen_nonneg.
  rewrite py_window_zsub.
  pose proof (py_bound_range a (zlen s) (zlen_nonneg s)). pose proof (py_bound_range b (zlen s) (zlen_nonneg s)).
  set (lo := py_bound a (zlen s)) in *. set (hi := py_bound b (zlen s)) in *.
  destruct (Z.le_gt_cases lo hi).
  - destruct (count_loop_ok s x hi Hx Hs ltac:(lia) Hstr fuel lo 0 ltac:(lia)) as (n & Hn & Hp).
    { unfold zlen in *. lia. }
    exists n. rewrite Hn. auto.
  - exists 0. destruct fuel; cbn [count_loop]; (destruct (Z.ltb_spec lo hi); [lia|]); (split; [reflexivity|]);
    unfold zsub; replace (Z.to_nat (hi - lo)) with 0%nat by lia; constructor; apply absent_empty; auto.
Qed.

(** ** replace *)
Lemma replace_loop_ok (s old new : list Z) : old <> [] -> zlen s < two63 ->
  forall fuel c n cnt ret, 0 <= c <= zlen s -> (Z.to_nat (zlen s - c) < fuel)%nat ->
  (n = cnt /\ 0 <= cnt \/ n < 0 /\ zlen s - c < cnt) ->
  exists r, replace_loop fuel s old new c cnt ret = Ok (ret ++ r) /\
            py_replace old new n (zsub s c (zlen s)) r.
Proof.
  intros Hold Hs. pose proof (nonempty_len old Hold).
  induction fuel as [|fuel IH]; intros c n cnt ret Hc Hf Hn; [lia|]. cbn [replace_loop].
  destruct (sv_find_ok s old c ltac:(lia) Hs) as [(i & Hf' & Hnp & Hge & Ho & Hmin)|(Hf' & Hno)];
    rewrite Hf'; cbn [bind].
  - destruct (Z.eqb_spec i npos); [congruence|]. cbn [negb andb]. pose proof (occurs_nonneg _ _ _ Ho).
    rewrite Z.gtb_ltb. destruct (Z.ltb_spec 0 cnt).
    + rewrite vec_range_zsub by lia. cbn [bind].
      destruct (IH (i + zlen old) (n - 1) (cnt - 1) (ret ++ zsub s c i ++ new) ltac:(lia) ltac:(lia) ltac:(lia)) as (r & Hr & Hp).
      exists (zsub s c i ++ new ++ r). split.
      * rewrite Hr. rewrite <- !app_assoc. reflexivity.
      * apply pr_step with (q := zsub s (i + zlen old) (zlen s)); auto; try lia.
        apply first_split_window; auto; lia.
    + rewrite vec_range_zsub by lia. cbn [bind]. eexists; split; [reflexivity|].
      apply pr_done. left. lia.
  - rewrite Z.eqb_refl. cbn [negb andb]. rewrite vec_range_zsub by lia. cbn [bind].
    eexists; split; [reflexivity|]. apply pr_done. right. apply absent_window; try lia.
    intros j Hj _. auto.
Qed.

Lemma text_replace_ok (s old new : list Z) count fuel : old <> [] -> zlen s < int64_max ->
  (length s < fuel)%nat ->
  exists r, text_replace fuel s old new count = Ok r /\ py_replace old new count s r.
Proof.
  intros Hold Hs Hf. unfold text_replace. unfold int64_max in *.
  destruct (replace_loop_ok s old new Hold ltac:(lia) fuel 0 count
              (if count <? 0 then two63 - 1 else count) []) as (r & Hr & Hp).
  - pose proof (zlen_nonneg s). lia.
  - unfold zlen. lia.
  - destruct (Z.ltb_spec count 0); [right|left]; lia.
  - exists r. rewrite zsub_all in Hp. auto.
Qed.

(** Empty pattern: nothing is consumed, the counter alone stops the loop. *)
Lemma sv_find_empty (s : list Z) c : 0 <= c <= zlen s -> sv_find s [] c = Ok c.
Proof.
  intros H. unfold sv_find. change (zlen (@nil Z)) with 0.
  destruct (Z.eqb_spec (zlen s) 0); cbn [orb andb].
  - assert (c = 0) as -> by lia. reflexivity.
  - rewrite Z.gtb_ltb. destruct (Z.ltb_spec (zlen s) c); [lia|]. reflexivity.
Qed.

Lemma replace_empty_stuck (s new : list Z) : zlen s < two63 -> forall fuel cnt ret, Z.of_nat fuel <= cnt ->
  replace_loop fuel s [] new 0 cnt ret = OutOfFuel.
Proof.
  intros Hs. induction fuel as [|fuel IH]; intros cnt ret H; [reflexivity|]. cbn [replace_loop].
  rewrite sv_find_empty by (pose proof (zlen_nonneg s); lia). cbn [bind].
  destruct (Z.eqb_spec 0 npos); [discriminate|]. cbn [negb andb].
  rewrite Z.gtb_ltb. destruct (Z.ltb_spec 0 cnt); [|lia].
  rewrite vec_range_zsub by (pose proof (zlen_nonneg s); lia). cbn [bind]. change (zlen (@nil Z)) with 0.
  rewrite Z.add_0_r. apply IH. lia.
Qed.

Lemma count_empty_stuck (s : list Z) hi : zlen s < two63 -> hi <= zlen s -> forall fuel c ret, 0 <= c < hi ->
  count_loop fuel s [] c hi ret = OutOfFuel.
Proof.
  intros Hs Hhi. induction fuel as [|fuel IH]; intros c ret H; cbn [count_loop].
  - destruct (Z.ltb_spec c hi); [reflexivity|lia].
  - destruct (Z.ltb_spec c hi); [|lia]. rewrite wrapu_small by (unfold two63, two64 in *; lia).
    rewrite sv_find_empty by lia. cbn [bind]. rewrite wraps_small by (unfold int64, two63 in *; lia).
    rewrite Z.gtb_ltb. destruct (Z.ltb_spec hi c); [lia|]. destruct (Z.eqb_spec c (-1)); [lia|]. cbn [orb].
    change (zlen (@nil Z)) with 0. rewrite Z.add_0_r. apply IH. lia.
Qed.

(** ** split by a separator *)
Definition drop_last_empty {A} (l : list (list A)) : list (list A) :=
  match rev l with
  | [] :: l' => rev l'
  | _ => l
  end.

Lemma drop_last_cons {A} (p : list A) l : l <> [] ->
  drop_last_empty (p :: l) = p :: drop_last_empty l.
Proof.
  intros H. unfold drop_last_empty. simpl rev. destruct (rev l) as [|x r] eqn:E.
  - destruct l; [congruence|]. apply (f_equal (@length _)) in E. rewrite rev_length in E. discriminate.
  - simpl. destruct x; [|reflexivity]. rewrite rev_app_distr. reflexivity.
Qed.

Lemma py_split_nonempty {A} (sep : list A) n s l : py_split sep n s l -> l <> [].
Proof. destruct 1; congruence. Qed.

Lemma split_sep_loop_ok (s sep : list Z) : sep <> [] -> zlen s < two63 ->
  forall fuel c n cnt out, 0 <= c <= zlen s -> (Z.to_nat (zlen s - c) <= fuel)%nat ->
  (n = cnt /\ 0 <= cnt \/ n < 0 /\ zlen s - c < cnt) ->
  exists l, split_sep_loop fuel s sep c cnt out = Ok (out ++ drop_last_empty l) /\
            py_split sep n (zsub s c (zlen s)) l.
Proof.
  intros Hsep Hs. pose proof (nonempty_len sep Hsep).
  assert (Hend : forall c n out, 0 <= c <= zlen s -> ~ c < zlen s ->
    exists l, Ok out = Ok (out ++ drop_last_empty l) /\ py_split sep n (zsub s c (zlen s)) l).
  { intros c n out Hc Hn. exists [[]]. split; [cbn; rewrite app_nil_r; reflexivity|].
    assert (c = zlen s) as -> by lia. rewrite zsub_nil. apply ps_done. right. apply absent_empty; auto. }
  assert (Hlast : forall c, 0 <= c < zlen s -> drop_last_empty [zsub s c (zlen s)] = [zsub s c (zlen s)]).
  { intros c Hc. unfold drop_last_empty. simpl. destruct (zsub s c (zlen s)) eqn:E; [|reflexivity].
    apply (f_equal (@length _)) in E. rewrite zsub_length in E by lia. simpl in E. lia. }
  induction fuel as [|fuel IH]; intros c n cnt out Hc Hf Hn; cbn [split_sep_loop].
  - destruct (Z.ltb_spec c (zlen s)); [lia|]. apply Hend; lia.
  - destruct (Z.ltb_spec c (zlen s)) as [Hlt|]; [|apply Hend; lia].
    rewrite Z.gtb_ltb. destruct (Z.ltb_spec 0 cnt).
    + destruct (sv_find_ok s sep c ltac:(lia) Hs) as [(i & Hf' & Hnp & Hge & Ho & Hmin)|(Hf' & Hno)];
        rewrite Hf'; cbn [bind].
      * destruct (Z.eqb_spec i npos); [congruence|]. pose proof (occurs_nonneg _ _ _ Ho).
        rewrite vec_range_zsub by lia. cbn [bind].
        destruct (IH (i + zlen sep) (n - 1) (cnt - 1) (out ++ [zsub s c i]) ltac:(lia) ltac:(lia) ltac:(lia)) as (l & Hl & Hp).
        exists (zsub s c i :: l). split.
        -- rewrite Hl, drop_last_cons by (eapply py_split_nonempty; eauto). rewrite <- app_assoc. reflexivity.
        -- apply ps_step with (q := zsub s (i + zlen sep) (zlen s)); auto; try lia.
           apply first_split_window; auto; lia.
      * rewrite Z.eqb_refl. rewrite vec_range_zsub by lia. cbn [bind].
        exists [zsub s c (zlen s)]. rewrite Hlast by lia. split; [reflexivity|].
        apply ps_done. right. apply absent_window; try lia. intros j Hj _. auto.
    + cbn [bind]. rewrite Z.eqb_refl. rewrite vec_range_zsub by lia. cbn [bind].
      exists [zsub s c (zlen s)]. rewrite Hlast by lia. split; [reflexivity|]. apply ps_done. left. lia.
Qed.

Lemma split_sep_ok (s sep : list Z) n : sep <> [] -> zlen s < int64_max ->
  exists l, split_sep s sep n = Ok (drop_last_empty l) /\ py_split sep n s l.
Proof.
  intros Hsep Hs. unfold split_sep. destruct sep as [|c0 sep0] eqn:E; [congruence|]. rewrite <- E in *. clear E c0 sep0.
  unfold int64_max in *.
  destruct (split_sep_loop_ok s sep Hsep ltac:(lia) (length s) 0 n (if n <? 0 then two63 - 1 else n) []) as (l & Hl & Hp).
  - pose proof (zlen_nonneg s). lia.
  - unfold zlen. lia.
  - destruct (Z.ltb_spec n 0); [right|left]; lia.
  - exists l. rewrite zsub_all in Hp. auto.
Qed.

(** join *)
Lemma join_copy_ok sep : forall l room out, 0 <= room ->
  zlen (concat (map (fun v => sep ++ v) l)) <= room ->
  join_copy room out sep l =
  Ok (room - zlen (concat (map (fun v => sep ++ v) l)), out ++ concat (map (fun v => sep ++ v) l)).
Proof.
  induction l as [|v l IH]; intros room out Hr Hle; cbn [join_copy map concat].
  - change (zlen (@nil Z)) with 0. rewrite Z.sub_0_r, app_nil_r. reflexivity.
  - cbn [map concat] in Hle. rewrite !zlen_app in Hle.
    pose proof (zlen_nonneg sep). pose proof (zlen_nonneg v).
    pose proof (zlen_nonneg (concat (map (fun v => sep ++ v) l))).
    unfold copy_out. destruct (Z.leb_spec (zlen sep) room); [|lia]. cbn [bind fst snd].
    destruct (Z.leb_spec (zlen v) (room - zlen sep)); [|lia]. cbn [bind fst snd].
    rewrite IH by lia. rewrite !zlen_app, <- !app_assoc. f_equal. f_equal. lia.
Qed.

Lemma py_join_concat {A} (sep : list A) v l :
  py_join sep (v :: l) = v ++ concat (map (fun w => sep ++ w) l).
Proof.
  revert v. induction l as [|w l IH]; intros v; [cbn; rewrite app_nil_r; reflexivity|].
  change (py_join sep (v :: w :: l)) with (v ++ sep ++ py_join sep (w :: l)). rewrite IH.
  cbn. rewrite <- app_assoc. reflexivity.
Qed.

Lemma join_cap sep : forall l c, fold_left (fun c w => c + zlen sep + zlen w) l c =
  c + zlen (concat (map (fun v : list Z => sep ++ v) l)).
Proof.
  induction l as [|w l IH]; intros c; cbn; [change (zlen (@nil Z)) with 0; lia|].
  rewrite IH, !zlen_app. lia.
Qed.

Lemma join_list_ok sep l : join_list sep l = Ok (py_join sep l).
Proof.
  unfold join_list. destruct l as [|v l]; [reflexivity|].
  rewrite join_cap. pose proof (zlen_nonneg v).
  pose proof (zlen_nonneg (concat (map (fun v => sep ++ v) l))).
  unfold copy_out. destruct (Z.leb_spec (zlen v) (zlen v + zlen (concat (map (fun v => sep ++ v) l)))); [|lia].
  cbn [bind fst snd]. rewrite join_copy_ok by lia. cbn [bind fst snd].
  match goal with |- context [?x =? 0] => destruct (Z.eqb_spec x 0); [|lia] end.
  rewrite py_join_concat. reflexivity.
Qed.

Lemma join_iter_ok sep l : join_iter sep l = py_join sep l.
Proof.
  destruct l as [|v l]; [reflexivity|]. rewrite py_join_concat. unfold join_iter. revert v.
  induction l as [|w l IH]; intros v; cbn; [rewrite app_nil_r; reflexivity|].
  rewrite IH, <- !app_assoc. reflexivity.
Qed.

Lemma join_split {A} (sep : list A) n s l : py_split sep n s l -> py_join sep l = s.
Proof.
  induction 1 as [n s H|n s p q l Hn Hf Hp IH]; [reflexivity|].
  destruct l as [|w l]; [inversion Hp|].
  change (py_join sep (p :: w :: l)) with (p ++ sep ++ py_join sep (w :: l)). rewrite IH.
  destruct Hf as [-> _]. reflexivity.
Qed.

Lemma py_split_ends {A} (sep : list A) n s l : py_split sep n s l -> s <> [] ->
  drop_last_empty l <> l -> exists p, s = p ++ sep.
Proof.
  intros Hp. induction Hp as [n s H|n s p q l Hn Hf Hp IH]; intros Hs Hd.
  - unfold drop_last_empty in Hd. simpl in Hd. destruct s; congruence.
  - rewrite drop_last_cons in Hd by (eapply py_split_nonempty; eauto).
    destruct Hf as [-> _]. destruct q as [|c q].
    + exists p. rewrite app_nil_r. reflexivity.
    + destruct IH as (p' & E); [congruence|congruence|]. exists (p ++ sep ++ p').
      rewrite <- !app_assoc. rewrite <- E. reflexivity.
Qed.

(** ** Scanning loops *)
Lemma zsub_cons {A} (s : list A) a b x : 0 <= a < b -> nth_error s (Z.to_nat a) = Some x ->
  zsub s a b = x :: zsub s (a + 1) b.
Proof.
  intros H Hx. rewrite (zsub_split s a (a + 1) b) by lia.
  replace (zsub s a (a + 1)) with [x]; [reflexivity|].
  unfold zsub. replace (Z.to_nat (a + 1 - a)) with 1%nat by lia.
  destruct (nth_error_split _ _ Hx) as (l1 & l2 & -> & <-).
  rewrite skipn_app, skipn_all, Nat.sub_diag. reflexivity.
Qed.

Lemma zsub_snoc {A} (s : list A) a b x : 0 <= a <= b -> nth_error s (Z.to_nat b) = Some x ->
  zsub s a (b + 1) = zsub s a b ++ [x].
Proof.
  intros H Hx. rewrite (zsub_split s a b (b + 1)) by lia. f_equal.
  rewrite (zsub_cons s b (b + 1) x) by (auto || lia). rewrite zsub_nil. reflexivity.
Qed.

Lemma skip_while_ok P (s : list Z) e : e <= zlen s -> forall fuel p, 0 <= p <= e ->
  (Z.to_nat (e - p) <= fuel)%nat ->
  exists r, skip_while fuel P s p e = Ok r /\ p <= r <= e /\
    (forall c, In c (zsub s p r) -> P c = true) /\
    (r < e -> exists x, nth_error s (Z.to_nat r) = Some x /\ P x = false).
Proof.
  intros He. induction fuel as [|fuel IH]; intros p Hp Hf; cbn [skip_while].
  - destruct (Z.ltb_spec p e); [lia|]. exists p. rewrite zsub_nil. repeat split; try lia; try (intros; lia).
    intros c [].
  - destruct (Z.ltb_spec p e) as [Hlt|].
    2:{ exists p. rewrite zsub_nil. repeat split; try lia; try (intros; lia). intros c []. }
    destruct (nth_error_some_lt s p ltac:(lia)) as (x & Hx).
    rewrite (rdz_some s p x ltac:(lia) Hx). cbn [bind].
    destruct (P x) eqn:EP.
    + destruct (IH (p + 1) ltac:(lia) ltac:(lia)) as (r & Hr & Hrr & Hall & Hstop).
      exists r. repeat split; auto; try lia.
      rewrite (zsub_cons s p r x) by (auto || lia). intros c [<-|Hc]; auto.
    + exists p. rewrite zsub_nil. repeat split; try lia. { intros c []. } eauto.
Qed.

Lemma skip_back_ok P (s : list Z) lo : 0 <= lo -> forall fuel p, lo - 1 <= p < zlen s ->
  (Z.to_nat (p + 1 - lo) <= fuel)%nat ->
  exists r, skip_back fuel P s p lo = Ok r /\ lo - 1 <= r <= p /\
    (forall c, In c (zsub s (r + 1) (p + 1)) -> P c = true) /\
    (lo <= r -> exists x, nth_error s (Z.to_nat r) = Some x /\ P x = false).
Proof.
  intros Hlo. induction fuel as [|fuel IH]; intros p Hp Hf; cbn [skip_back]; rewrite Z.geb_leb.
  - destruct (Z.leb_spec lo p); [lia|]. exists p. rewrite zsub_nil. repeat split; try lia; try (intros; lia).
    intros c [].
  - destruct (Z.leb_spec lo p) as [Hlt|].
    2:{ exists p. rewrite zsub_nil. repeat split; try lia; try (intros; lia). intros c []. }
    destruct (nth_error_some_lt s p ltac:(lia)) as (x & Hx).
    rewrite (rdz_some s p x ltac:(lia) Hx). cbn [bind].
    destruct (P x) eqn:EP.
    + destruct (IH (p - 1) ltac:(lia) ltac:(lia)) as (r & Hr & Hrr & Hall & Hstop).
      exists r. repeat split; auto; try lia.
      rewrite (zsub_snoc s (r + 1) p x) by (auto || lia). intros c Hc. apply in_app_or in Hc.
      replace p with (p - 1 + 1) in Hc by lia. destruct Hc as [Hc|[<-|[]]]; auto.
    + exists p. rewrite zsub_nil. repeat split; try lia. { intros c []. } eauto.
Qed.

(** ** Whitespace split *)
Lemma py_split_ws_prefix {A} (sp0 : list A) (space : A -> bool) n s l :
  (forall c, In c sp0 -> space c = true) -> py_split_ws space n s l -> py_split_ws space n (sp0 ++ s) l.
Proof.
  intros H0 H. destruct H as [n s H|n s sp w rest l Hn E Hsp Hw Hw2 Hr Hp|s sp c w E Hsp Hc].
  - apply pw_blank. intros c Hc. apply in_app_or in Hc. destruct Hc; auto.
  - apply pw_word with (sp := sp0 ++ sp) (rest := rest); auto.
    + rewrite E, <- app_assoc. reflexivity.
    + intros c Hc. apply in_app_or in Hc. destruct Hc; auto.
  - apply pw_rest with (sp := sp0 ++ sp); auto.
    + rewrite E, <- app_assoc. reflexivity.
    + intros d Hd. apply in_app_or in Hd. destruct Hd; auto.
Qed.

Lemma in_zsub_split {A} (s : list A) a b c x : 0 <= a <= b -> b <= c ->
  In x (zsub s a b) -> In x (zsub s a c).
Proof. intros H1 H2 H. rewrite (zsub_split s a b c) by lia. apply in_or_app. auto. Qed.

Lemma split_ws_loop_ok isspace (s : list Z) :
  forall fuel last cur n cnt out,
  ((last = zlen s /\ cur = zlen s + 1) \/
   (0 <= last < cur /\ cur <= zlen s /\ forall c, In c (zsub s last cur) -> isspace c = false)) ->
  (Z.to_nat (zlen s - cur) <= fuel)%nat ->
  (n = cnt /\ 0 <= cnt \/ n < 0 /\ zlen s - last < cnt) ->
  exists out' last' l, split_ws_loop fuel isspace s last cur cnt out = Ok (out', last') /\
    0 <= last' <= zlen s /\
    out' ++ (if last' <? zlen s then [zsub s last' (zlen s)] else []) = out ++ l /\
    py_split_ws isspace n (zsub s last (zlen s)) l.
Proof.
  pose proof (zlen_nonneg s) as Hlen.
  assert (Hend : forall last cur n out, ((last = zlen s /\ cur = zlen s + 1) \/
     (0 <= last < cur /\ cur <= zlen s /\ forall c, In c (zsub s last cur) -> isspace c = false)) ->
     ~ cur < zlen s ->
     exists out' last' l, Ok (out, last) = Ok (out', last') /\ 0 <= last' <= zlen s /\
       out' ++ (if last' <? zlen s then [zsub s last' (zlen s)] else []) = out ++ l /\
       py_split_ws isspace n (zsub s last (zlen s)) l).
  { intros last cur n out [[-> ->]|(Hl & Hc & Hns)] Hge.
    - exists out, (zlen s), []. rewrite Z.ltb_irrefl. repeat split; try lia. rewrite zsub_nil. apply pw_blank. intros c [].
    - assert (cur = zlen s) as -> by lia.
      exists out, last, [zsub s last (zlen s)]. destruct (Z.ltb_spec last (zlen s)); [|lia].
      split; [reflexivity|]. split; [lia|]. split; [reflexivity|].
      destruct (Z.eq_dec n 0) as [->|Hn].
      + destruct (zsub s last (zlen s)) as [|c w] eqn:E.
        { apply (f_equal (@length _)) in E. rewrite zsub_length in E by lia. simpl in E. lia. }
        apply pw_rest with (sp := []); [reflexivity|intros d []|apply Hns]. left; auto.
      + apply pw_word with (sp := []) (rest := []); auto.
        * rewrite app_nil_r. reflexivity.
        * intros E. apply (f_equal (@length _)) in E. rewrite zsub_length in E by lia. simpl in E. lia.
        * apply pw_blank. intros c []. }
  induction fuel as [|fuel IH]; intros last cur n cnt out Hst Hf Hn; cbn [split_ws_loop].
  - destruct (Z.ltb_spec cur (zlen s)); [lia|]. eapply Hend; eauto; lia.
  - destruct (Z.ltb_spec cur (zlen s)) as [Hlt|]; [|eapply Hend; eauto; lia].
    destruct Hst as [[-> ->]|(Hl & Hc & Hns)]; [lia|].
    destruct (nth_error_some_lt s cur ltac:(lia)) as (x & Hx).
    rewrite (rdz_some s cur x ltac:(lia) Hx). cbn [bind].
    destruct (isspace x) eqn:EP.
    + rewrite Z.gtb_ltb. destruct (Z.ltb_spec 0 cnt).
      * rewrite vec_range_zsub by lia. cbn [bind].
        destruct (skip_while_ok isspace s (zlen s) ltac:(lia) (length s) (cur + 1)) as (r & Hr & Hrr & Hall & Hstop);
          [lia|unfold zlen; lia|].
        rewrite Hr. cbn [bind].
        destruct (IH r (r + 1) (n - 1) (cnt - 1) (out ++ [zsub s last cur])) as (out' & last' & l & H1 & H2 & H3 & H4).
        -- destruct (Z.eq_dec r (zlen s)); [left; lia|right].
           destruct (Hstop ltac:(lia)) as (y & Hy & HPy). repeat split; try lia.
           rewrite (zsub_cons s r (r + 1) y) by (auto || lia). rewrite zsub_nil. intros c [<-|[]]; auto.
        -- lia.
        -- lia.
        -- exists out', last', (zsub s last cur :: l). repeat split; auto; try lia.
           { rewrite H3, <- app_assoc. reflexivity. }
           apply pw_word with (sp := []) (rest := zsub s cur (zlen s)); auto.
           ++ lia.
           ++ cbn. apply zsub_split; lia.
           ++ intros E. apply (f_equal (@length _)) in E. rewrite zsub_length in E by lia. simpl in E. lia.
           ++ right. exists x, (zsub s (cur + 1) (zlen s)). split; auto. apply zsub_cons; auto; lia.
           ++ rewrite (zsub_split s cur r (zlen s)) by lia. apply py_split_ws_prefix; auto.
              rewrite (zsub_cons s cur r x) by (auto || lia). intros c [<-|Hc']; auto.
      * rewrite vec_range_zsub by lia. cbn [bind].
        exists (out ++ [zsub s last (zlen s)]), (zlen s), [zsub s last (zlen s)].
        rewrite Z.ltb_irrefl, app_nil_r. repeat split; try lia.
        assert (n = 0) as -> by lia.
        destruct (zsub s last (zlen s)) as [|c w] eqn:E.
        { apply (f_equal (@length _)) in E. rewrite zsub_length in E by lia. simpl in E. lia. }
        apply pw_rest with (sp := []); [reflexivity|intros d []|apply Hns].
        rewrite (zsub_split s last cur (zlen s)) in E by lia.
        destruct (zsub s last cur) as [|c' w'] eqn:E'.
        { apply (f_equal (@length _)) in E'. rewrite zsub_length in E' by lia. simpl in E'. lia. }
        cbn in E. injection E as -> _. left. reflexivity.
    + apply IH; [right|lia|lia]. repeat split; try lia.
      rewrite (zsub_snoc s last cur x) by (auto || lia). intros c Hc'. apply in_app_or in Hc'.
      destruct Hc' as [Hc'|[<-|[]]]; auto.
Qed.

Lemma split_ws_ok isspace (s : list Z) n : zlen s < int64_max ->
  exists l, split_ws isspace s n = Ok l /\ py_split_ws isspace n s l.
Proof.
  intros Hs. unfold split_ws. pose proof (zlen_nonneg s). unfold int64_max in *.
  destruct (skip_while_ok isspace s (zlen s) ltac:(lia) (length s) 0) as (r & Hr & Hrr & Hall & Hstop);
    [lia|unfold zlen; lia|].
  rewrite Hr. cbn [bind].
  destruct (split_ws_loop_ok isspace s (length s) r (r + 1) n (if n <? 0 then two63 - 1 else n) [])
    as (out' & last' & l & H1 & H2 & H3 & H4).
  - destruct (Z.eq_dec r (zlen s)); [left; lia|right].
    destruct (Hstop ltac:(lia)) as (y & Hy & HPy). repeat split; try lia.
    rewrite (zsub_cons s r (r + 1) y) by (auto || lia). rewrite zsub_nil. intros c [<-|[]]; auto.
  - unfold zlen. lia.
  - destruct (Z.ltb_spec n 0); [right|left]; lia.
  - rewrite H1. cbn [bind]. exists l. split.
    + cbn in H3. rewrite <- H3. destruct (Z.ltb_spec last' (zlen s)).
      * rewrite vec_range_zsub by lia. reflexivity.
      * rewrite app_nil_r. reflexivity.
    + rewrite <- (zsub_all s), (zsub_split s 0 r (zlen s)) by lia. apply py_split_ws_prefix; auto.
Qed.

(** ** strip *)
Lemma lstrip_ok P (s : list Z) : exists r, lstrip P s = Ok r /\ py_lstrip (fun c => P c = true) s r.
Proof.
  unfold lstrip. pose proof (zlen_nonneg s).
  destruct (skip_while_ok P s (zlen s) ltac:(lia) (length s) 0) as (r & Hr & Hrr & Hall & Hstop);
    [lia|unfold zlen; lia|].
  rewrite Hr. cbn [bind]. destruct (Z.ltb_spec r (zlen s)).
  - rewrite vec_range_zsub by lia. eexists; split; [reflexivity|]. exists (zsub s 0 r). repeat split; auto.
    + rewrite <- zsub_split by lia. symmetry. apply zsub_all.
    + destruct (Hstop ltac:(lia)) as (x & Hx & HP). rewrite (zsub_cons s r (zlen s) x) by (auto || lia).
      intros c r' E. injection E as -> _. congruence.
  - assert (r = zlen s) as -> by lia. rewrite zsub_all in Hall.
    exists []. split; [reflexivity|]. exists s. rewrite app_nil_r. repeat split; auto. discriminate.
Qed.

Lemma rstrip_ok P (s : list Z) : exists r, rstrip P s = Ok r /\ py_rstrip (fun c => P c = true) s r.
Proof.
  unfold rstrip. pose proof (zlen_nonneg s).
  destruct (skip_back_ok P s 0 ltac:(lia) (length s) (zlen s - 1)) as (r & Hr & Hrr & Hall & Hstop);
    [lia|unfold zlen; lia|].
  rewrite Hr. cbn [bind]. replace (zlen s - 1 + 1) with (zlen s) in Hall by lia.
  rewrite Z.geb_leb. destruct (Z.leb_spec 0 r).
  - rewrite vec_range_zsub by lia. eexists; split; [reflexivity|]. exists (zsub s (r + 1) (zlen s)). repeat split; auto.
    + rewrite <- zsub_split by lia. symmetry. apply zsub_all.
    + destruct (Hstop ltac:(lia)) as (x & Hx & HP). rewrite (zsub_snoc s 0 r x) by (auto || lia).
      intros c r' E. apply app_inj_tail in E. destruct E as [_ ->]. congruence.
  - assert (r = -1) as -> by lia. change (-1 + 1) with 0 in Hall. rewrite zsub_all in Hall.
    exists []. split; [reflexivity|]. exists s. repeat split; auto. intros c [|y r'] E; discriminate.
Qed.

Lemma strip_ok P (s : list Z) : exists r, strip P s = Ok r /\ py_strip (fun c => P c = true) s r.
Proof.
  unfold strip. pose proof (zlen_nonneg s).
  destruct (skip_while_ok P s (zlen s) ltac:(lia) (length s) 0) as (l & Hl & Hlr & Hall1 & Hstop1);
    [lia|unfold zlen; lia|].
  rewrite Hl. cbn [bind].
  destruct (Z.eq_dec l (zlen s)) as [->|Hne].
  - assert (E : skip_back (length s) P s (zlen s - 1) (zlen s + 1) = Ok (zlen s - 1)).
    { destruct (length s); cbn [skip_back]; rewrite Z.geb_leb; destruct (Z.leb_spec (zlen s + 1) (zlen s - 1)); try lia; reflexivity. }
    rewrite E. cbn [bind]. rewrite Z.geb_leb. destruct (Z.leb_spec (zlen s) (zlen s - 1)); [lia|].
    exists []. split; [reflexivity|]. exists s, []. rewrite zsub_all in Hall1. rewrite !app_nil_r.
    repeat split; auto; try discriminate. intros c [|y r'] E'; discriminate.
  - destruct (skip_back_ok P s (l + 1) ltac:(lia) (length s) (zlen s - 1)) as (r & Hr & Hrr & Hall & Hstop);
      [lia|unfold zlen in *; lia|].
    rewrite Hr. cbn [bind]. replace (zlen s - 1 + 1) with (zlen s) in Hall by lia.
    rewrite Z.geb_leb. destruct (Z.leb_spec l r); [|lia].
    rewrite vec_range_zsub by lia. eexists; split; [reflexivity|].
    exists (zsub s 0 l), (zsub s (r + 1) (zlen s)).
    destruct (Hstop1 ltac:(lia)) as (x & Hx & HPx).
    repeat split; auto.
    + rewrite <- (zsub_split s l (r + 1) (zlen s)) by lia. rewrite <- zsub_split by lia. symmetry. apply zsub_all.
    + rewrite (zsub_cons s l (r + 1) x) by (auto || lia). intros c r' E. injection E as -> _. congruence.
    + destruct (Z.eq_dec r l) as [->|].
      * rewrite (zsub_snoc s l l x) by (auto || lia). intros c r' E. apply app_inj_tail in E. destruct E as [_ ->]. congruence.
      * destruct (Hstop ltac:(lia)) as (y & Hy & HPy).
        rewrite (zsub_snoc s l r y) by (auto || lia). intros c r' E. apply app_inj_tail in E. destruct E as [_ ->]. congruence.
Qed.

Lemma in_chars_ok (chars : list Z) c : zlen chars < two63 -> in_chars chars c = true <-> In c chars.
Proof.
  intros Hc63. unfold in_chars, sv_find_char. pose proof (zlen_nonneg chars).
  destruct (Z.eqb_spec (zlen chars) 0) as [Hz|Hz]; cbn [orb].
  { assert (chars = []) as -> by (destruct chars; [reflexivity|unfold zlen in Hz; simpl in Hz; lia]).
    cbn. intuition discriminate. }
  rewrite Z.geb_leb. destruct (Z.leb_spec (zlen chars) 0); [lia|].
  destruct (memchr_ok (length chars) chars 0 (zlen chars) c ltac:(lia) ltac:(lia) ltac:(unfold zlen; lia))
    as [(i & Hm & Hr & Hn & Hmin)|(Hm & Hmin)]; rewrite Hm; cbn [bind].
  - destruct (Z.eqb_spec i npos) as [->|]; [unfold npos, two63, two64 in *; lia|]. cbn [negb].
    split; [intros _|reflexivity]. eapply nth_error_In; eauto.
  - rewrite Z.eqb_refl. cbn. split; [discriminate|]. intros Hin.
    apply In_nth_error in Hin. destruct Hin as (k & Hk). exfalso. apply (Hmin (Z.of_nat k)).
    + assert (k < length chars)%nat by (apply nth_error_Some; congruence). unfold zlen. lia.
    + rewrite Nat2Z.id. exact Hk.
Qed.

(** rfind(char) and find(char) are the one-character cases of rfind and find. *)
Lemma rfind_char_loop_ok k : forall (s : list Z) c, Z.of_nat k < zlen s ->
  (exists i, rfind_char_loop k s c = Ok i /\ 0 <= i <= Z.of_nat k /\ nth_error s (Z.to_nat i) = Some c /\
             forall j, i < j <= Z.of_nat k -> nth_error s (Z.to_nat j) <> Some c) \/
  (rfind_char_loop k s c = Ok npos /\ forall j, 0 <= j <= Z.of_nat k -> nth_error s (Z.to_nat j) <> Some c).
Proof.
  induction k as [|k IH]; intros s c Hk; cbn [rfind_char_loop].
  - destruct (nth_error_some_lt s 0 ltac:(lia)) as (x & Hx). unfold rd. change (Z.to_nat 0) with 0%nat in Hx.
    rewrite Hx. cbn [bind]. destruct (Z.eqb_spec x c) as [->|Hne].
    + left. exists 0. repeat split; auto; lia.
    + right. split; [reflexivity|]. intros j Hj. assert (j = 0) as -> by lia. change (Z.to_nat 0) with 0%nat. congruence.
  - destruct (nth_error_some_lt s (Z.of_nat (S k)) ltac:(lia)) as (x & Hx). rewrite Nat2Z.id in Hx. unfold rd.
    rewrite Hx. cbn [bind]. destruct (Z.eqb_spec x c) as [->|Hne].
    + left. exists (Z.of_nat (S k)). rewrite Nat2Z.id. repeat split; auto; try lia.
    + destruct (IH s c ltac:(lia)) as [(i & Hi & Hr & Hn & Hmax)|(Hi & Hmax)].
      * left. exists i. repeat split; auto; try lia. intros j Hj.
        destruct (Z.eq_dec j (Z.of_nat (S k))) as [->|]; [rewrite Nat2Z.id; congruence|apply Hmax; lia].
      * right. split; [exact Hi|]. intros j Hj.
        destruct (Z.eq_dec j (Z.of_nat (S k))) as [->|]; [rewrite Nat2Z.id; congruence|apply Hmax; lia].
Qed.

Lemma occurs_single (s : list Z) c k : 0 <= k -> occurs_at s [c] k <-> nth_error s (Z.to_nat k) = Some c.
Proof.
  intros Hk. rewrite occurs_cons by lia. split; [tauto|]. intros H. split; [exact H|].
  apply occurs_firstn. assert (Z.to_nat k < length s)%nat by (apply nth_error_Some; congruence).
  change (zlen (@nil Z)) with 0. unfold zlen. repeat split; lia.
Qed.

Lemma sv_rfind_char_ok (s : list Z) c pos : 0 <= pos -> zlen s < two63 ->
  (exists i, sv_rfind_char s c pos = Ok i /\ i <> npos /\ i <= pos /\ occurs_at s [c] i /\
             forall j, j <= pos -> occurs_at s [c] j -> j <= i) \/
  (sv_rfind_char s c pos = Ok npos /\ forall j, j <= pos -> ~ occurs_at s [c] j).
Proof.
  intros Hp Hs. unfold sv_rfind_char. pose proof (zlen_nonneg s).
  destruct (Z.eqb_spec (zlen s) 0) as [Hz|Hz].
  { right. split; [reflexivity|]. intros j _ Ho. apply occurs_nonneg in Ho. change (zlen [c]) with 1 in Ho. lia. }
  destruct (rfind_char_loop_ok (Z.to_nat (Z.min pos (zlen s - 1))) s c ltac:(lia)) as [(i & Hi & Hr & Hn & Hmax)|(Hi & Hmax)].
  - left. exists i. repeat split; auto; try lia.
    + unfold npos, two63, two64 in *. lia.
    + apply occurs_single; auto; lia.
    + intros j Hj Ho. pose proof (occurs_nonneg _ _ _ Ho). change (zlen [c]) with 1 in *.
      destruct (Z.le_gt_cases j i); auto. exfalso. apply (Hmax j); [lia|]. apply occurs_single; auto; lia.
  - right. split; [exact Hi|]. intros j Hj Ho. pose proof (occurs_nonneg _ _ _ Ho). change (zlen [c]) with 1 in *.
    apply (Hmax j); [lia|]. apply occurs_single; auto; lia.
Qed.

Lemma sv_find_char_ok (s : list Z) c pos : 0 <= pos -> zlen s < two63 ->
  (exists i, sv_find_char s c pos = Ok i /\ i <> npos /\ pos <= i /\ occurs_at s [c] i /\
             forall j, pos <= j -> occurs_at s [c] j -> i <= j) \/
  (sv_find_char s c pos = Ok npos /\ forall j, pos <= j -> ~ occurs_at s [c] j).
Proof.
  intros Hp Hs. unfold sv_find_char. pose proof (zlen_nonneg s).
  destruct (Z.eqb_spec (zlen s) 0) as [Hz|Hz]; cbn [orb].
  { right. split; [reflexivity|]. intros j _ Ho. apply occurs_nonneg in Ho. change (zlen [c]) with 1 in Ho. lia. }
  rewrite Z.geb_leb. destruct (Z.leb_spec (zlen s) pos).
  { right. split; [reflexivity|]. intros j Hj Ho. apply occurs_nonneg in Ho. change (zlen [c]) with 1 in Ho. lia. }
  destruct (memchr_ok (length s) s pos (zlen s) c ltac:(lia) ltac:(lia) ltac:(unfold zlen; lia))
    as [(i & Hm & Hr & Hn & Hmin)|(Hm & Hmin)]; rewrite Hm; cbn [bind].
  - left. exists i. repeat split; auto; try lia.
    + unfold npos, two63, two64 in *. lia.
    + apply occurs_single; auto; lia.
    + intros j Hj Ho. destruct (Z.le_gt_cases i j); auto. exfalso. apply (Hmin j); [lia|]. apply occurs_single; auto; lia.
  - right. split; [reflexivity|]. intros j Hj Ho. pose proof (occurs_nonneg _ _ _ Ho). change (zlen [c]) with 1 in *.
    apply (Hmin j); [lia|]. apply occurs_single; auto; lia.
Qed.

(** ** startswith / endswith *)
Lemma compare_at_ok (s v : list Z) p : 0 <= p -> p + zlen v <= zlen s ->
  exists b, compare_at s v p = Ok b /\ (b = true <-> zsub s p (p + zlen v) = v).
Proof.
  intros H1 H2. pose proof (zlen_nonneg v). unfold compare_at. rewrite vec_range_zsub by lia. cbn [bind].
  destruct (memeq_ok v (zsub s p (p + zlen v)) 0) as (b & Hb & Hiff); [lia|rewrite zlen_zsub by lia; lia|].
  exists b. split; [exact Hb|]. rewrite Hiff. split.
  - intros (p' & q & E & Hl). destruct p'; [|unfold py_len in Hl; simpl in Hl; lia].
    assert (zlen (zsub s p (p + zlen v)) = zlen v) by (rewrite zlen_zsub by lia; lia).
    assert (q = []). { rewrite E in H0. cbn [app] in H0. rewrite zlen_app in H0. destruct q; [reflexivity|]. rewrite zlen_cons in H0. pose proof (zlen_nonneg q). lia. }
    subst q. rewrite E. cbn. apply app_nil_r.
  - intros E. exists [], []. rewrite E. cbn. rewrite app_nil_r. auto.
Qed.

Lemma window_lo {A} (s : list A) a : 
  (if a <? 0 then Z.max 0 (a + zlen s) else a) <= zlen s ->
  py_bound a (zlen s) = (if a <? 0 then Z.max 0 (a + zlen s) else a).
Proof. intros H. pose proof (zlen_nonneg s). unfold py_bound. destruct (Z.ltb_spec a 0); lia. Qed.

Lemma window_ok_bound {A} (s : list A) a b : py_window_ok s a b ->
  py_bound a (zlen s) <= py_bound b (zlen s).
Proof.
  unfold py_window_ok. change (@py_len) with (@zlen) in *.
  pose proof (py_bound_range b (zlen s) (zlen_nonneg s)). intros H0. rewrite window_lo; lia.
Qed.

Lemma starts_with_ok (s p : list Z) a b : p <> [] \/ py_bound a (zlen s) < zlen s ->
  exists r, starts_with s p a b = Ok r /\ (r = true <-> py_startswith s p a b).
Proof.
  intros Hg. unfold starts_with. rewrite !slice_correction_is_py by apply zlen_nonneg.
  unfold py_startswith. rewrite py_window_zsub.
  pose proof (py_bound_range a (zlen s) (zlen_nonneg s)). pose proof (py_bound_range b (zlen s) (zlen_nonneg s)).
  pose proof (zlen_nonneg p). pose proof (window_ok_bound s a b) as Hw.
  assert (Hpl : p <> [] -> 0 < zlen p) by apply nonempty_len.
  assert (Hok : py_bound a (zlen s) < zlen s -> py_bound a (zlen s) <= py_bound b (zlen s) -> py_window_ok s a b).
  { intros h1 h2. unfold py_window_ok. change (@py_len) with (@zlen) in *. revert h1 h2. unfold py_bound. destruct (Z.ltb_spec a 0); destruct (Z.ltb_spec b 0); lia. }
  set (lo := py_bound a (zlen s)) in *. set (hi := py_bound b (zlen s)) in *.
  destruct (Z.ltb_spec (hi - lo) (zlen p)); cbn [orb].
  - exists false. split; [reflexivity|]. split; [discriminate|]. intros (Hwo & q & E). specialize (Hw Hwo).
    apply (f_equal (@zlen Z)) in E. rewrite zlen_zsub, zlen_app in E by lia. pose proof (zlen_nonneg q). lia.
  - rewrite Z.geb_leb. destruct (Z.leb_spec (zlen s) lo).
    { exfalso. destruct Hg as [Hg|Hg]; [specialize (Hpl Hg); lia|lia]. }
    destruct (compare_at_ok s p lo ltac:(lia) ltac:(lia)) as (r & Hr & Hiff).
    exists r. split; [exact Hr|]. rewrite Hiff. split.
    + intros E. split; [apply Hok; lia|]. exists (zsub s (lo + zlen p) hi). rewrite <- E at 1. apply zsub_split; lia.
    + intros (_ & q & E). rewrite (zsub_split s lo (lo + zlen p) hi) in E by lia.
      assert (El : length (zsub s lo (lo + zlen p)) = length p) by (rewrite zsub_length by lia; unfold zlen in *; lia).
      apply (f_equal (firstn (length p))) in E. rewrite <- El in E at 1.
      rewrite !firstn_app, !firstn_all, El, !Nat.sub_diag in E. cbn in E. rewrite !app_nil_r in E. exact E.
Qed.

Lemma ends_with_ok (s p : list Z) a b : p <> [] \/ py_bound a (zlen s) < zlen s ->
  exists r, ends_with s p a b = Ok r /\ (r = true <-> py_endswith s p a b).
Proof.
  intros Hg. unfold ends_with. rewrite !slice_correction_is_py by apply zlen_nonneg.
  unfold py_endswith. rewrite py_window_zsub.
  pose proof (py_bound_range a (zlen s) (zlen_nonneg s)). pose proof (py_bound_range b (zlen s) (zlen_nonneg s)).
  pose proof (zlen_nonneg p). pose proof (window_ok_bound s a b) as Hw.
  assert (Hpl : p <> [] -> 0 < zlen p) by apply nonempty_len.
  assert (Hok : py_bound a (zlen s) < zlen s -> py_bound a (zlen s) <= py_bound b (zlen s) -> py_window_ok s a b).
  { intros h1 h2. unfold py_window_ok. change (@py_len) with (@zlen) in *. revert h1 h2. unfold py_bound. destruct (Z.ltb_spec a 0); destruct (Z.ltb_spec b 0); lia. }
  set (lo := py_bound a (zlen s)) in *. set (hi := py_bound b (zlen s)) in *.
  destruct (Z.ltb_spec (hi - lo) (zlen p)); cbn [orb].
  - exists false. split; [reflexivity|]. split; [discriminate|]. intros (Hwo & q & E). specialize (Hw Hwo).
    apply (f_equal (@zlen Z)) in E. rewrite zlen_zsub, zlen_app in E by lia. pose proof (zlen_nonneg q). lia.
  - rewrite Z.geb_leb. destruct (Z.leb_spec (zlen s) lo).
    { exfalso. destruct Hg as [Hg|Hg]; [specialize (Hpl Hg); lia|lia]. }
    destruct (compare_at_ok s p (hi - zlen p) ltac:(lia) ltac:(lia)) as (r & Hr & Hiff).
    replace (hi - zlen p + zlen p) with hi in Hiff by lia.
    exists r. split; [exact Hr|]. rewrite Hiff. split.
    + intros E. split; [apply Hok; lia|]. exists (zsub s lo (hi - zlen p)). rewrite <- E. rewrite E at 1. apply zsub_split; lia.
    + intros (_ & q & E). rewrite (zsub_split s lo (hi - zlen p) hi) in E by lia.
      assert (El : length (zsub s (hi - zlen p) hi) = length p) by (rewrite zsub_length by lia; unfold zlen in *; lia).
      assert (El2 : length (zsub s lo (hi - zlen p)) = length q).
      { apply (f_equal (@length Z)) in E. rewrite !app_length in E. lia. }
      clear -E El2. revert q E El2. generalize (zsub s lo (hi - zlen p)) as u.
      induction u as [|x u IH]; intros [|y q] E El; try discriminate; [exact E|].
      cbn in E. injection E as _ E. apply (IH q); auto.
Qed.

(** ** ASCII case mapping and classification *)
Lemma lower_byte b : is_byte b ->
  (let c := schar b in uchar (if (c <=? 90) && (c >=? 65) then c - 65 + 97 else c)) =
  if (65 <=? b) && (b <=? 90) then b + 32 else b.
Proof.
  unfold is_byte, schar, uchar. intros H. cbv zeta.
  destruct (Z.ltb_spec b 128).
  - rewrite Z.geb_leb, andb_comm. destruct ((65 <=? b) && (b <=? 90)) eqn:E; lia.
  - replace ((b - 256 <=? 90) && (b - 256 >=? 65)) with false by lia.
    replace ((65 <=? b) && (b <=? 90)) with false by lia. lia.
Qed.

Lemma upper_byte b : is_byte b ->
  (let c := schar b in uchar (if (c <=? 122) && (c >=? 97) then c - 97 + 65 else c)) =
  if (97 <=? b) && (b <=? 122) then b - 32 else b.
Proof.
  unfold is_byte, schar, uchar. intros H. cbv zeta.
  destruct (Z.ltb_spec b 128).
  - rewrite Z.geb_leb, andb_comm. destruct ((97 <=? b) && (b <=? 122)) eqn:E; lia.
  - replace ((b - 256 <=? 122) && (b - 256 >=? 97)) with false by lia.
    replace ((97 <=? b) && (b <=? 122)) with false by lia. lia.
Qed.

Lemma isdigit_byte b : is_byte b ->
  (let c := schar b in (c >=? 48) && (c <=? 57)) = true <-> is_digit b.
Proof. unfold is_byte, schar, is_digit. intros H. cbv zeta. destruct (Z.ltb_spec b 128); lia. Qed.

Lemma isalpha_byte b : is_byte b ->
  (let c := schar b in ((c >=? 97) && (c <=? 122)) || ((c >=? 65) && (c <=? 90))) = true <->
  is_lower b \/ is_upper b.
Proof. unfold is_byte, schar, is_lower, is_upper. intros H. cbv zeta. destruct (Z.ltb_spec b 128); lia. Qed.

(** ** StringUtil *)
Lemma rdz_inv {A} (l : list A) i x : rdz l i = Ok x -> 0 <= i /\ nth_error l (Z.to_nat i) = Some x.
Proof.
  unfold rdz, rd. destruct (Z.ltb_spec i 0); [discriminate|].
  destruct (nth_error l (Z.to_nat i)) eqn:E; [|discriminate]. intros H0. injection H0 as <-. auto.
Qed.

Lemma last_index_ok j : forall (t : list Z) c r, last_index j t c = Ok r ->
  (r = -1 /\ forall k, (k < j)%nat -> nth_error t k <> Some c) \/
  (0 <= r < Z.of_nat j /\ nth_error t (Z.to_nat r) = Some c /\
   forall k, r < Z.of_nat k < Z.of_nat j -> nth_error t k <> Some c).
Proof.
  induction j as [|j IH]; intros t c r H; cbn [last_index] in H.
  - injection H as <-. left. split; [reflexivity|]. intros; lia.
  - unfold rd in H. destruct (nth_error t j) as [x|] eqn:E; cbn [bind] in H; [|discriminate].
    destruct (Z.eqb_spec x c) as [->|Hne].
    + injection H as <-. right. rewrite Nat2Z.id. repeat split; auto; try lia.
    + destruct (IH _ _ _ H) as [(-> & Hk)|(Hr & Hn & Hk)].
      * left. split; [reflexivity|]. intros k Hlt. destruct (Nat.eq_dec k j) as [->|]; [congruence|apply Hk; lia].
      * right. repeat split; auto; try lia. intros k Hlt. destruct (Nat.eq_dec k j) as [->|]; [congruence|apply Hk; lia].
Qed.

Lemma occurs_nth {A} (s t : list A) k i x : occurs_at s t k -> 0 <= i -> nth_error t (Z.to_nat i) = Some x ->
  nth_error s (Z.to_nat (k + i)) = Some x.
Proof.
  intros (p & q & -> & <-) Hi Hx. unfold py_len.
  assert (Z.to_nat i < length t)%nat by (apply nth_error_Some; congruence).
  rewrite nth_error_app2 by lia. rewrite nth_error_app1 by lia.
  rewrite <- Hx. f_equal. lia.
Qed.

Lemma occurs_by_nth (s t : list Z) k : 0 <= k ->
  (forall i x, (i < length t)%nat -> nth_error t i = Some x -> nth_error s (Z.to_nat k + i) = Some x) ->
  k + zlen t <= zlen s -> occurs_at s t k.
Proof.
  intros Hk. revert k Hk. induction t as [|c t IH]; intros k Hk H Hle.
  - apply occurs_firstn. change (zlen (@nil Z)) with 0 in *. repeat split; lia.
  - rewrite zlen_cons in Hle. apply occurs_cons; [lia|]. split.
    + specialize (H 0%nat c ltac:(simpl; lia) eq_refl). rewrite Nat.add_0_r in H. exact H.
    + apply IH; try lia. intros i x Hi Hx. replace (Z.to_nat (k + 1) + i)%nat with (Z.to_nat k + S i)%nat by lia.
      apply H; [simpl; lia|exact Hx].
Qed.

Lemma su_find_loop_ok (s t : list Z) : t <> [] -> ~ In 0 t -> forall fuel i j r,
  0 <= j <= i -> j < zlen t -> i - j <= zlen s + 1 ->
  (forall k, k < i - j -> ~ occurs_at s t k) ->
  (forall m, 0 <= m < j -> nth_error s (Z.to_nat (i - j + m)) = nth_error t (Z.to_nat m)) ->
  su_find_loop fuel s t i j = Ok r ->
  (0 <= r /\ occurs_at s t r /\ forall k, occurs_at s t k -> r <= k) \/
  (r = -1 /\ forall k, ~ occurs_at s t k).
Proof.
  intros Ht Hz. pose proof (nonempty_len t Ht) as Hlt.
  induction fuel as [|fuel IH]; intros i j r Hj Hjt Hw Hbef Hpart H; cbn [su_find_loop] in H;
    destruct (Z.ltb_spec i (zlen s)) as [Hi|Hi]; try discriminate.
  1,3: (injection H as <-; right; split; [reflexivity|]; intros k Ho;
    destruct (Z.lt_ge_cases k (i - j)) as [|Hk]; [apply (Hbef k); auto|];
    apply occurs_nonneg in Ho; lia).
  destruct (rdz (c_str s) i) as [a| | |] eqn:Ea; cbn [bind] in H; try discriminate.
  destruct (rdz (c_str t) j) as [b| | |] eqn:Eb; cbn [bind] in H; try discriminate.
  apply rdz_inv in Ea. apply rdz_inv in Eb. destruct Ea as [_ Ea]. destruct Eb as [_ Eb].
  unfold c_str in Ea, Eb. unfold zlen in Hi, Hjt.
  rewrite nth_error_app1 in Ea by lia. rewrite nth_error_app1 in Eb by lia.
  destruct (Z.eqb_spec a b) as [->|Hne].
  - destruct (Z.eqb_spec j (zlen t - 1)) as [Hje|Hje].
    + injection H as <-. left.
      assert (Ho : occurs_at s t (i - zlen t + 1)).
      { apply occurs_by_nth; [lia| |unfold zlen in *; lia]. intros m x Hm Hx.
        destruct (Nat.eq_dec m (Z.to_nat j)) as [->|Hnm].
        - rewrite Eb in Hx. injection Hx as <-. rewrite <- Ea. f_equal. lia.
        - specialize (Hpart (Z.of_nat m) ltac:(unfold zlen in *; lia)). rewrite Nat2Z.id, Hx in Hpart.
          rewrite <- Hpart. f_equal. unfold zlen in *. lia. }
      repeat split; auto; [lia|]. intros k Hk. destruct (Z.lt_ge_cases k (i - j)) as [Hlt'|]; [|lia].
      exfalso. apply (Hbef k); auto.
    + apply IH in H; auto; try (unfold zlen in *; lia).
      * intros k Hk. apply Hbef. lia.
      * intros m Hm. replace (i + 1 - (j + 1) + m) with (i - j + m) by lia.
        destruct (Z.eq_dec m j) as [->|]; [|apply Hpart; lia].
        replace (i - j + j) with i by lia. congruence.
  - assert (Hnow : ~ occurs_at s t (i - j)).
    { intros Ho. apply (occurs_nth _ _ _ j b) in Ho; [|lia|exact Eb].
      replace (i - j + j) with i in Ho by lia. congruence. }
    destruct (rdz (c_str s) (i - j + zlen t)) as [c| | |] eqn:Ec; cbn [bind] in H; try discriminate.
    apply rdz_inv in Ec. destruct Ec as [_ Ec]. unfold c_str in Ec.
    destruct (last_index (length t) t c) as [ix| | |] eqn:El; cbn [bind] in H; try discriminate.
    apply last_index_ok in El.
    set (p := i - j + zlen t) in *.
    assert (Hp : 0 <= p <= zlen s).
    { split; [unfold p, zlen; lia|]. assert (Z.to_nat p < length (s ++ [0%Z]))%nat by (apply nth_error_Some; congruence).
      rewrite app_length in H0. simpl in H0. unfold zlen. lia. }
    (* the character after the window decides how far the next occurrence is *)
    assert (Hcov : forall k, i - j < k <= p -> occurs_at s t k -> nth_error t (Z.to_nat (p - k)) = Some c).
    { intros k Hk Ho. pose proof (occurs_nonneg _ _ _ Ho) as Hb.
      destruct (nth_error_some_lt t (p - k)) as (x & Hx); [unfold p in *; lia|].
      pose proof (occurs_nth _ _ _ (p - k) x Ho ltac:(lia) Hx) as Hs. replace (k + (p - k)) with p in Hs by lia.
      assert (Z.to_nat p < length s)%nat by (apply nth_error_Some; congruence).
      rewrite nth_error_app1 in Ec by lia. congruence. }
    assert (Hlow : forall k, k <= i - j -> ~ occurs_at s t k).
    { intros k Hk. destruct (Z.eq_dec k (i - j)) as [->|]; [exact Hnow|apply Hbef; lia]. }
    destruct El as [(-> & Hk)|(Hr & Hn & Hk)].
    + rewrite Z.eqb_refl in H. apply IH in H; auto; try (unfold p in *; lia).
      * intros k Hk'. destruct (Z.le_gt_cases k (i - j)); [apply Hlow; lia|]. intros Ho.
        pose proof (Hcov k ltac:(lia) Ho) as Hc.
        apply (Hk (Z.to_nat (p - k))); [|exact Hc]. apply nth_error_Some. congruence.
    + destruct (Z.eqb_spec ix (-1)); [lia|].
      assert (ix < zlen t) by (unfold zlen; lia).
      apply IH in H; auto; try (unfold p in *; lia).
      * intros k Hk'. destruct (Z.le_gt_cases k (i - j)); [apply Hlow; lia|]. intros Ho.
        pose proof (Hcov k ltac:(lia) Ho) as Hc.
        apply (Hk (Z.to_nat (p - k))); [|exact Hc].
        assert (Z.to_nat (p - k) < length t)%nat by (apply nth_error_Some; congruence). lia.
Qed.

Lemma su_find_ok fuel (s t : list Z) r : ~ In 0 t -> hd_error s <> Some 0 -> s <> [] ->
  su_find fuel s t = Ok r ->
  (0 <= r /\ occurs_at s t r /\ forall k, occurs_at s t k -> r <= k) \/
  (r = -1 /\ forall k, ~ occurs_at s t k).
Proof.
  intros Hz Hh Hs H. unfold su_find in H. destruct s as [|s0 s]; [congruence|].
  change (rdz (c_str (s0 :: s)) 0) with (Ok s0) in H. cbn [bind] in H.
  destruct (Z.eqb_spec s0 0) as [->|Hs0]; [cbn in Hh; congruence|].
  destruct t as [|t0 t].
  - change (rdz (c_str []) 0) with (Ok 0) in H. cbn in H. injection H as <-. left.
    repeat split; [lia| |].
    + exists [], (s0 :: s). split; reflexivity.
    + intros k Ho. apply occurs_nonneg in Ho. lia.
  - change (rdz (c_str (t0 :: t)) 0) with (Ok t0) in H. cbn [bind] in H.
    destruct (Z.eqb_spec t0 0) as [->|]; [exfalso; apply Hz; left; reflexivity|].
    destruct (Z.ltb_spec (zlen (s0 :: s)) (zlen (t0 :: t))).
    + injection H as <-. right. split; [reflexivity|]. intros k Ho. apply occurs_nonneg in Ho. lia.
    + apply su_find_loop_ok in H; auto; try lia; try congruence.
      * rewrite zlen_cons. pose proof (zlen_nonneg t). lia.
      * pose proof (zlen_nonneg (s0 :: s)). lia.
      * intros k Hk Ho. apply occurs_nonneg in Ho. lia.
Qed.

Lemma su_replace_ok (t r : list Z) : t <> [] -> forall fuel done rest,
  (length rest < fuel)%nat -> zlen done + zlen rest * (1 + zlen r) < two63 -> 
  exists x, su_replace_loop fuel (done ++ rest) t r (zlen done) = Ok (done ++ x) /\
            forall n, n < 0 -> py_replace t r n rest x.
Proof.
  intros Ht. pose proof (nonempty_len t Ht). pose proof (zlen_nonneg r).
  induction fuel as [|fuel IH]; intros done rest Hf Hb; [lia|]. cbn [su_replace_loop].
  pose proof (zlen_nonneg done). pose proof (zlen_nonneg rest).
  assert (Hle : zlen (done ++ rest) < two63) by (rewrite zlen_app; nia).
  assert (Hr : zsub (done ++ rest) (zlen done) (zlen (done ++ rest)) = rest).
  { unfold zsub. rewrite zlen_app. replace (Z.to_nat (zlen done + zlen rest - zlen done)) with (length rest) by (unfold zlen; lia).
    replace (Z.to_nat (zlen done)) with (length done) by (unfold zlen; lia).
    rewrite skipn_app, skipn_all, Nat.sub_diag. cbn. apply firstn_all. }
  destruct (sv_find_ok (done ++ rest) t (zlen done) ltac:(lia) Hle) as [(i & Hf' & Hnp & Hge & Ho & Hmin)|(Hf' & Hno)];
    rewrite Hf'; cbn [bind].
  - destruct (Z.eqb_spec i npos); [congruence|]. pose proof (occurs_nonneg _ _ _ Ho) as Hb'. rewrite zlen_app in Hb'.
    assert (Hfs : first_split rest t (zsub (done ++ rest) (zlen done) i)
                    (zsub (done ++ rest) (i + zlen t) (zlen (done ++ rest)))).
    { rewrite <- Hr at 1. apply first_split_window; auto; rewrite ?zlen_app; lia. }
    set (p := zsub (done ++ rest) (zlen done) i) in *.
    set (q := zsub (done ++ rest) (i + zlen t) (zlen (done ++ rest))) in *.
    assert (Hlp : zlen p = i - zlen done) by (apply zlen_zsub; rewrite ?zlen_app; lia).
    destruct Hfs as [Erest Hfst].
    assert (E1 : firstn (Z.to_nat i) (done ++ rest) = done ++ p).
    { rewrite Erest, app_assoc. rewrite firstn_app.
      replace (Z.to_nat i - length (done ++ p))%nat with 0%nat by (rewrite app_length; unfold zlen in *; lia).
      rewrite firstn_O, app_nil_r. apply firstn_all2. rewrite app_length. unfold zlen in *. lia. }
    assert (E2 : skipn (Z.to_nat (i + zlen t)) (done ++ rest) = q).
    { rewrite Erest. replace (done ++ p ++ t ++ q) with ((done ++ p ++ t) ++ q) by (rewrite <- !app_assoc; reflexivity).
      replace (Z.to_nat (i + zlen t)) with (length (done ++ p ++ t)) by (rewrite !app_length; unfold zlen in *; lia).
      rewrite skipn_app, skipn_all, Nat.sub_diag. reflexivity. }
    rewrite E1, E2. replace ((done ++ p) ++ r ++ q) with ((done ++ p ++ r) ++ q) by (rewrite <- !app_assoc; reflexivity).
    replace (i + zlen r) with (zlen (done ++ p ++ r)) by (rewrite !zlen_app; lia).
    pose proof (f_equal (@zlen Z) Erest) as El. rewrite !zlen_app in El.
    pose proof (zlen_nonneg q). pose proof (zlen_nonneg p).
    destruct (IH (done ++ p ++ r) q) as (x & Hx & Hp).
    + unfold zlen in *. lia.
    + rewrite !zlen_app. nia.
    + exists (p ++ r ++ x). split; [rewrite Hx, <- !app_assoc; reflexivity|].
      intros m Hm. apply pr_step with (q := q); [lia|split; auto|apply Hp; lia].
  - rewrite Z.eqb_refl. exists rest. split; [reflexivity|]. intros n _. apply pr_done. right.
    apply absent_occurs. intros k Hk. rewrite <- Hr in Hk.
    apply occurs_window in Hk; [|rewrite zlen_app; lia|lia]. destruct Hk as (Hk & _ & Ho). apply (Hno (zlen done + k)); auto. lia.
Qed.

(** ** The Python relations are functional *)
Lemma app_len_inj {A} (a b c d : list A) : a ++ b = c ++ d -> length a = length c -> a = c /\ b = d.
Proof.
  revert c. induction a as [|x a IH]; intros [|y c] E El; try discriminate; [auto|].
  cbn in E. injection E as -> E. destruct (IH c E) as [-> ->]; auto.
Qed.

Lemma first_split_unique {A} (s t p q p' q' : list A) :
  first_split s t p q -> first_split s t p' q' -> p = p' /\ q = q'.
Proof.
  intros [E M] [E' M']. pose proof (M _ _ E'). pose proof (M' _ _ E).
  rewrite E in E'. apply app_len_inj in E'; [|lia]. destruct E' as [-> E'].
  apply app_inv_head in E'. auto.
Qed.

Lemma first_split_absent {A} (s t p q : list A) : first_split s t p q -> absent s t -> False.
Proof. intros [E _] H. apply (H p q E). Qed.

Lemma py_count_unique {A} (t s : list A) n : py_count t s n -> forall m, py_count t s m -> n = m.
Proof.
  induction 1 as [s H|s p q n F H IH]; intros m Hm; inversion Hm; subst; auto.
  - exfalso. eapply first_split_absent; eauto.
  - exfalso. eapply first_split_absent; eauto.
  - match goal with F' : first_split s t _ _ |- _ => destruct (first_split_unique _ _ _ _ _ _ F F') as [-> ->] end.
    f_equal. apply IH. assumption.
Qed.

Lemma py_replace_unique {A} (old new s : list A) n r : py_replace old new n s r ->
  forall r', py_replace old new n s r' -> r = r'.
Proof.
  induction 1 as [n s H|n s p q r Hn F H IH]; intros r' Hr; inversion Hr; subst; auto.
  - destruct H as [|H]; [congruence|]. exfalso. eapply first_split_absent; eauto.
  - match goal with H0 : _ = 0 \/ _ |- _ => destruct H0 as [|H0]; [congruence|] end. exfalso. eapply first_split_absent; eauto.
  - match goal with F' : first_split s old _ _ |- _ => destruct (first_split_unique _ _ _ _ _ _ F F') as [-> ->] end.
    do 2 f_equal. apply IH. assumption.
Qed.

Lemma py_split_unique {A} (sep s : list A) n l : py_split sep n s l ->
  forall l', py_split sep n s l' -> l = l'.
Proof.
  induction 1 as [n s H|n s p q l Hn F H IH]; intros l' Hr; inversion Hr; subst; auto.
  - destruct H as [|H]; [congruence|]. exfalso. eapply first_split_absent; eauto.
  - match goal with H0 : _ = 0 \/ _ |- _ => destruct H0 as [|H0]; [congruence|] end. exfalso. eapply first_split_absent; eauto.
  - match goal with F' : first_split s sep _ _ |- _ => destruct (first_split_unique _ _ _ _ _ _ F F') as [-> ->] end.
    f_equal. apply IH. assumption.
Qed.
