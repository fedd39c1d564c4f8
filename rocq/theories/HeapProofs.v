(** Proofs about heaps and selection. *)
From Verif Require Import Base PdqModel PdqSpec PdqProofs HeapModel HeapSpec.
Ltac Zify.zify_post_hook ::= Z.to_euclidean_division_equations.

Section HeapP.
Context {T : Type}.
Variable d : T.
Variable lt : T -> T -> bool.
Hypothesis SWO : strict_weak_order lt.
Notation "l @ i" := (at_ d l i) (at level 9, format "l @ i").
Notation le := (fun x y => lt y x = false) (only parsing).

Lemma asym x y : lt x y = true -> lt y x = false.
Proof.
  intros H. destruct (lt y x) eqn:E; [|reflexivity].
  pose proof (swo_trans _ SWO _ _ _ H E). pose proof (swo_irrefl _ SWO x). congruence.
Qed.
Lemma letr x y z : lt y x = false -> lt z y = false -> lt z x = false.
Proof. exact (le_trans lt SWO x y z). Qed.
Lemma lerefl x : lt x x = false.
Proof. apply (swo_irrefl _ SWO). Qed.

Lemma rdz_at l i : inr l i -> rdz l i = Ok (l@i).
Proof.
  intros H. unfold rdz, rd. unfold inr in H. destruct (Z.ltb_spec i 0); [lia|]. rewrite (nth_error_at d) by exact H. reflexivity.
Qed.
Lemma wr_ok (l : list T) i x : inr l i -> wr l i x = Ok (upd l (Z.to_nat i) x).
Proof.
  unfold inr, len. intros H. unfold wr, llen. destruct (Z.leb_spec 0 i), (Z.ltb_spec i (Z.of_nat (length l))); try lia. reflexivity.
Qed.
Lemma at_upd l i j x : inr l i -> 0 <= j -> (upd l (Z.to_nat i) x)@j = if j =? i then x else l@j.
Proof.
  unfold inr, len, at_. intros Hi Hj. rewrite nth_upd by lia.
  destruct (Nat.eqb_spec (Z.to_nat j) (Z.to_nat i)), (Z.eqb_spec j i); try lia; reflexivity.
Qed.
Lemma len_upd (l : list T) n x : len (upd l n x) = len l.
Proof. unfold len. rewrite upd_length. reflexivity. Qed.
Lemma swap_ok l i j : inr l i -> inr l j -> swap l i j = Ok (swp d l i j).
Proof.
  intros Hi Hj. unfold swap. rewrite !rdz_at by assumption. cbn [bind]. rewrite wr_ok by assumption. cbn [bind].
  rewrite wr_ok; [reflexivity|]. unfold inr in *. rewrite len_upd. exact Hj.
Qed.

(** ** Sift down *)
Definition child (l : list T) (p c : Z) : Prop := 0 <= p /\ (c = 2 * p + 1 \/ c = 2 * p + 2) /\ c < len l.
Definition heap_from (k : Z) (l : list T) : Prop := forall p c, k <= p -> child l p c -> lt (l@c) (l@p) = false.
Definition heap_but (i k : Z) (l : list T) : Prop :=
  (forall p c, k <= p -> p <> i -> child l p c -> lt (l@c) (l@p) = false) /\
  (forall p c, k <= p -> child l p i -> child l i c -> lt (l@c) (l@p) = false).

(** ** The specification's heap *)
Lemma is_heap_iff l : is_heap lt l <-> heap_from 0 l.
Proof.
  split.
  - intros H p c Hp (P1 & P2 & P3). apply (H (Z.to_nat p)).
    + apply nth_error_at. unfold inr; lia.
    + replace (Z.to_nat c) with (Z.to_nat c) by lia.
      assert (Ec : nth_error l (Z.to_nat c) = Some (l@c)) by (apply nth_error_at; unfold inr; lia).
      destruct P2 as [->| ->]; [left|right]; rewrite <- Ec; f_equal; lia.
  - intros H i p c Hp Hc.
    assert (Hi : (i < length l)%nat) by (apply nth_error_Some; congruence).
    assert (Ep : p = l@(Z.of_nat i)).
    { unfold at_. rewrite Nat2Z.id. symmetry. apply nth_error_nth. exact Hp. }
    assert (Ec : exists k, child l (Z.of_nat i) k /\ c = l@k).
    { destruct Hc as [Hc|Hc];
      [exists (Z.of_nat (2 * i + 1))|exists (Z.of_nat (2 * i + 2))];
      (split; [unfold child, len; assert (nth_error l _ <> None) as Q by (rewrite Hc; discriminate); apply nth_error_Some in Q; lia
              |unfold at_; rewrite Nat2Z.id; symmetry; apply nth_error_nth; exact Hc]). }
    destruct Ec as (k & Ck & ->). subst p. apply H; [lia|exact Ck].
Qed.
Lemma root_min l i : heap_from 0 l -> inr l i -> lt (l@i) (l@0) = false.
Proof.
  intros H Hi. destruct Hi as [H0 Hi]. revert i H0 Hi. apply (Zlt_0_ind (fun i => i < len l -> lt (l@i) (l@0) = false)).
  intros i IH H0 Hi. destruct (Z.eq_dec i 0) as [->|N]; [apply lerefl|].
  apply (letr _ (l@((i - 1) / 2))); [apply IH; lia|]. apply H; [lia|]. unfold child. lia.
Qed.
Lemma in_at l x : In x l -> exists i, inr l i /\ l@i = x.
Proof.
  intros H. apply (In_nth _ _ d) in H. destruct H as (n & Hn & E). exists (Z.of_nat n). unfold inr, len, at_. rewrite Nat2Z.id. split; [lia|exact E].
Qed.
Lemma head_at (x : T) l : (x :: l)@0 = x.
Proof. reflexivity. Qed.
Lemma heap_head_min x l : is_heap lt (x :: l) -> minimum_of lt x (x :: l).
Proof.
  intros H. apply is_heap_iff in H. split; [left; reflexivity|]. intros y Hy. apply in_at in Hy. destruct Hy as (i & Hi & <-).
  rewrite <- (head_at x l) at 2. apply root_min; assumption.
Qed.
Lemma heap_but_root x y l : is_heap lt (x :: l) -> heap_but 0 0 (y :: l).
Proof.
  intros H. apply is_heap_iff in H. split.
  - intros p c Hp Np Hc. assert (Q : lt ((x :: l)@c) ((x :: l)@p) = false) by (apply H; [lia|exact Hc]).
    unfold child in Hc. unfold at_ in *. replace (Z.to_nat p) with (S (Z.to_nat (p - 1))) in * by lia.
    replace (Z.to_nat c) with (S (Z.to_nat (c - 1))) in * by lia. exact Q.
  - intros p c Hp (Q1 & Q2 & Q3). lia.
Qed.
Variable func : T -> T -> bool.
Hypothesis FUNC : forall x y, func x y = lt x y.

Lemma pick_ok l c m : inr l m -> 0 <= c ->
  exists m', pick func l c m = Ok m' /\ (m' = m \/ m' = c /\ c < len l) /\ lt (l@m) (l@m') = false /\
    (c < len l -> lt (l@c) (l@m') = false) /\ (m' <> m -> lt (l@m') (l@m) = true).
Proof.
  intros Hm Hc. unfold pick. change (llen l) with (len l). destruct (Z.ltb_spec c (len l)) as [H|H].
  - rewrite !rdz_at by (unfold inr in *; lia). cbn [bind]. rewrite FUNC. destruct (lt (l@c) (l@m)) eqn:E.
    + exists c. split; [reflexivity|]. split; [right; auto|]. split; [apply asym; exact E|]. split; [intros; apply lerefl|intros; exact E].
    + exists m. split; [reflexivity|]. split; [left; auto|]. split; [apply lerefl|]. split; [intros; exact E|congruence].
  - exists m. split; [reflexivity|]. split; [left; auto|]. split; [apply lerefl|]. split; [lia|congruence].
Qed.

Lemma shift_down_ok : forall fuel l i k, 0 <= k -> k <= i < len l -> (Z.to_nat (len l - i) <= fuel)%nat -> heap_but i k l ->
  exists l', shift_down fuel func l i = Ok l' /\ Permutation l l' /\ heap_from k l'.
Proof.
  induction fuel as [|fuel IH]; intros l i k Hk Hi Hf [H1 H2]; [lia|]. cbn [shift_down].
  destruct (pick_ok l (2 * i + 1) i) as (m1 & E1 & C1 & L1 & G1 & N1); [unfold inr; lia|lia|].
  rewrite E1. cbn [bind].
  destruct (pick_ok l (2 * i + 1 + 1) m1) as (m & E2 & C2 & L2 & G2 & N2); [unfold inr; lia|lia|].
  rewrite E2. cbn [bind].
  assert (B1 : forall c, child l i c -> lt (l@c) (l@m) = false).
  { intros c (_ & [->| ->] & Hc).
    - apply (letr _ (l@m1)); [exact L2|]. apply G1. lia.
    - replace (2 * i + 2) with (2 * i + 1 + 1) in * by lia. apply G2. lia. }
  destruct (Z.eqb_spec m i) as [->|Nm].
  - exists l. split; [reflexivity|]. split; [reflexivity|]. intros p c Hp Hc. destruct (Z.eq_dec p i) as [->|Np]; [apply B1; exact Hc|apply H1; assumption].
  - assert (Cm : child l i m).
    { unfold child. destruct C2 as [-> |[-> C2]]; [destruct C1 as [-> |[-> C1]]; [congruence|]|]; lia. }
    assert (Lm : lt (l@m) (l@i) = true).
    { destruct (Z.eq_dec m m1) as [->|Nm1]; [apply N1; exact Nm|]. specialize (N2 Nm1).
      destruct (Z.eq_dec m1 i) as [->|Ni]; [exact N2|]. apply (swo_trans _ SWO _ (l@m1)); [exact N2|apply N1; exact Ni]. }
    destruct Cm as (Ci & Cm & Cl).
    rewrite swap_ok by (unfold inr; lia). cbn [bind].
    destruct (IH (swp d l i m) m k) as (l' & E & P & Hl'); [lia|rewrite len_swp; lia|rewrite len_swp; lia| |].
    + split.
      * intros p c Hp Np (P1 & P2 & P3). rewrite len_swp in P3. rewrite !at_swp by (unfold inr; lia).
        destruct (Z.eqb_spec c i) as [->|Nci].
        { destruct (Z.eqb_spec p i); [lia|]. destruct (Z.eqb_spec p m); [lia|]. apply (H2 p m); unfold child; lia. }
        destruct (Z.eqb_spec c m) as [->|Ncm].
        { destruct (Z.eqb_spec p i); [|lia]. apply asym. exact Lm. }
        destruct (Z.eqb_spec p i) as [->|Npi]; [apply B1; unfold child; lia|].
        destruct (Z.eqb_spec p m); [lia|]. apply H1; unfold child; lia.
      * intros p c Hp (P1 & P2 & P3) (Q1 & Q2 & Q3). rewrite len_swp in P3, Q3. rewrite !at_swp by (unfold inr; lia).
        assert (p = i) by lia. subst p. rewrite Z.eqb_refl.
        destruct (Z.eqb_spec c i); [lia|]. destruct (Z.eqb_spec c m); [lia|]. apply H1; unfold child; lia.
    + exists l'. split; [exact E|]. split; [|exact Hl']. etransitivity; [|exact P]. apply swp_perm; unfold inr; lia.
Qed.
Lemma ShiftDown_ok l i k : 0 <= k -> k <= i < len l -> heap_but i k l ->
  exists l', ShiftDown func l i = Ok l' /\ Permutation l l' /\ heap_from k l'.
Proof. intros Hk Hi H. apply shift_down_ok; auto. unfold len in *. lia. Qed.

Lemma heapify_loop_ok : forall n l, Z.of_nat n <= len l -> heap_from (Z.of_nat n) l ->
  exists l', heapify_loop n func l = Ok l' /\ Permutation l l' /\ heap_from 0 l'.
Proof.
  induction n as [|n IH]; intros l Hn H; cbn [heapify_loop].
  - exists l. split; [reflexivity|]. split; [reflexivity|exact H].
  - destruct (ShiftDown_ok l (Z.of_nat n) (Z.of_nat n)) as (l1 & E1 & P1 & H1); [lia|lia| |].
    + split.
      * intros p c Hp Np Hc. apply H; [lia|exact Hc].
      * intros p c Hp (Q1 & Q2 & Q3). lia.
    + rewrite E1. cbn [bind]. destruct (IH l1) as (l2 & E2 & P2 & H2); [unfold len in *; rewrite <- (Permutation_length P1); lia|exact H1|].
      exists l2. split; [exact E2|]. split; [etransitivity; eassumption|exact H2].
Qed.

Lemma replace_top x y l : is_heap lt (x :: l) ->
  exists l', (let! m := wr (x :: l) 0 y in ShiftDown func m 0) = Ok l' /\ Permutation (y :: l) l' /\ is_heap lt l'.
Proof.
  intros H. rewrite wr_ok by (unfold inr, len; cbn [length]; lia). cbn [bind]. change (upd (x :: l) (Z.to_nat 0) y) with (y :: l).
  destruct (ShiftDown_ok (y :: l) 0 0) as (l' & E & P & Q); [lia|unfold len; cbn [length]; lia|eapply heap_but_root; exact H|].
  exists l'. split; [exact E|]. split; [exact P|]. apply is_heap_iff. exact Q.
Qed.
End HeapP.

Ltac conjs := repeat match goal with |- _ /\ _ => split; [first [reflexivity|lia|assumption]|] end.
Section SelectP.
Context {T : Type}.
Variable d : T.
Variable lt : T -> T -> bool.
Hypothesis SWO : strict_weak_order lt.
Variable comp : T -> T -> Z.
Hypothesis TW : three_way lt comp.
Notation "l @ i" := (at_ d l i) (at level 9, format "l @ i").

Lemma comp_lt x y : (comp x y <? 0) = lt x y.
Proof. destruct (TW x y) as [H _]. destruct (Z.ltb_spec (comp x y) 0), (lt x y); try reflexivity; [symmetry; apply H; lia|assert (comp x y < 0) by (apply H; reflexivity); lia]. Qed.
Lemma comp_gt x y : (comp x y >? 0) = lt y x.
Proof. rewrite Z.gtb_ltb. destruct (TW x y) as [_ H]. destruct (Z.ltb_spec 0 (comp x y)), (lt y x); try reflexivity; [symmetry; apply H; lia|assert (comp x y > 0) by (apply H; reflexivity); lia]. Qed.

Lemma find_max_ok : forall n l s m, 0 <= s -> s + Z.of_nat n <= len l -> inr l m ->
  exists m', find_max n comp l s m = Ok m' /\ (m' = m \/ s <= m' < s + Z.of_nat n) /\ lt (l@m') (l@m) = false /\
    forall i, s <= i < s + Z.of_nat n -> lt (l@m') (l@i) = false.
Proof.
  induction n as [|n IH]; intros l s m Hs Hn Hm; cbn [find_max].
  - exists m. split; [reflexivity|]. split; [auto|]. split; [apply (lerefl lt SWO)|]. lia.
  - rewrite !(rdz_at d) by (unfold inr in *; lia). cbn [bind]. rewrite comp_gt.
    destruct (IH l s (if lt (l@m) (l@(s + Z.of_nat n)) then s + Z.of_nat n else m)) as (m' & E & C & L & G); [lia|lia|destruct (lt _ _); unfold inr in *; lia|].
    rewrite E. exists m'. split; [reflexivity|]. destruct (lt (l@m) (l@(s + Z.of_nat n))) eqn:Q.
    + split; [lia|]. split; [apply (letr lt SWO _ (l@(s + Z.of_nat n))); [apply (asym lt SWO); exact Q|exact L]|].
      intros i Hi. destruct (Z.eq_dec i (s + Z.of_nat n)) as [->|N]; [exact L|apply G; lia].
    + split; [lia|]. split; [exact L|]. intros i Hi. destruct (Z.eq_dec i (s + Z.of_nat n)) as [->|N]; [|apply G; lia].
      apply (letr lt SWO _ (l@m)); assumption.
Qed.
Lemma find_min_ok : forall n l i m, 0 <= i -> i + Z.of_nat n <= len l -> inr l m ->
  exists m', find_min n comp l i m = Ok m' /\ (m' = m \/ i <= m' < i + Z.of_nat n) /\ lt (l@m) (l@m') = false /\
    forall j, i <= j < i + Z.of_nat n -> lt (l@j) (l@m') = false.
Proof.
  induction n as [|n IH]; intros l i m Hs Hn Hm; cbn [find_min].
  - exists m. split; [reflexivity|]. split; [auto|]. split; [apply (lerefl lt SWO)|]. lia.
  - rewrite !(rdz_at d) by (unfold inr in *; lia). cbn [bind]. rewrite comp_lt.
    destruct (IH l (i + 1) (if lt (l@i) (l@m) then i else m)) as (m' & E & C & L & G); [lia|lia|destruct (lt _ _); unfold inr in *; lia|].
    rewrite E. exists m'. split; [reflexivity|]. destruct (lt (l@i) (l@m)) eqn:Q.
    + split; [lia|]. split; [apply (letr lt SWO _ (l@i)); [exact L|apply (asym lt SWO); exact Q]|].
      intros j Hj. destruct (Z.eq_dec j i) as [->|N]; [exact L|apply G; lia].
    + split; [lia|]. split; [exact L|]. intros j Hj. destruct (Z.eq_dec j i) as [->|N]; [|apply G; lia].
      apply (letr lt SWO _ (l@m)); assumption.
Qed.

(** Partition: [m] is the list with the pivot put back into the hole. *)
Definition withv (l : list T) (h : Z) (v : T) := upd l (Z.to_nat h) v.
Lemma swp_hole l h j v : inr l h -> inr l j -> h <> j ->
  withv (upd l (Z.to_nat h) (l@j)) j v = swp d (withv l h v) h j.
Proof.
  intros Hh Hj N. apply (at_ext d).
  - unfold withv. rewrite len_swp, !len_upd. reflexivity.
  - intros k Hk. unfold withv, inr in *. rewrite !len_upd in Hk.
    rewrite at_swp by (unfold inr; rewrite ?len_upd; lia).
    rewrite !at_upd by (unfold inr; rewrite ?len_upd; lia).
    destruct (Z.eqb_spec k j), (Z.eqb_spec k h), (Z.eqb_spec j h), (Z.eqb_spec h h); subst; try lia; reflexivity.
Qed.
Lemma part_up_ok s e v : 0 <= s -> forall fuel l i j, s <= i -> i <= j <= e -> e < len l -> (Z.to_nat (j - i) <= fuel)%nat ->
  (forall k, s <= k < i -> lt v (l@k) = false) -> (forall k, j < k <= e -> lt (l@k) v = false) ->
  exists l' i' j', part_up fuel comp v l i j = Ok (l', i', j') /\ i <= i' /\ i' <= j' <= j /\ len l' = len l /\
    (i < j -> i < i' \/ j' < j) /\
    (forall k, s <= k < i' -> lt v (l'@k) = false) /\ (forall k, j' < k <= e -> lt (l'@k) v = false) /\
    perm_in s (e + 1) (withv l j v) (withv l' i' v).
Proof.
  intros Hs. induction fuel as [|fuel IH]; intros l i j Hi Hj He Hf HA HB; cbn [part_up].
  - destruct (Z.ltb_spec i j); [lia|]. assert (j = i) by lia. subst j.
    exists l, i, i. conjs. apply perm_in_refl; unfold withv; rewrite ?len_upd; lia.
  - destruct (Z.ltb_spec i j) as [Hij|Hij].
    + rewrite (rdz_at d) by (unfold inr in *; lia). cbn [bind]. rewrite comp_gt. destruct (lt v (l@i)) eqn:Q.
      * rewrite wr_ok by (unfold inr in *; lia). cbn [bind]. exists (upd l (Z.to_nat j) (l@i)), i, (j - 1).
        split; [reflexivity|]. split; [lia|]. split; [lia|]. split; [apply len_upd|]. split; [lia|].
        split; [|split].
        -- intros k Hk. rewrite at_upd by (unfold inr; lia). destruct (Z.eqb_spec k j); [lia|]. apply HA. lia.
        -- intros k Hk. rewrite at_upd by (unfold inr; lia). destruct (Z.eqb_spec k j); [apply (asym lt SWO); exact Q|]. apply HB. lia.
        -- rewrite swp_hole by (unfold inr in *; lia). apply perm_in_swp; unfold withv; rewrite ?len_upd; lia.
      * destruct (IH l (i + 1) j) as (l' & i' & j' & E & R1 & R2 & R3 & R4 & R5 & R6 & R7); try lia; try assumption.
        { intros k Hk. destruct (Z.eq_dec k i) as [->|N]; [exact Q|]. apply HA. lia. }
        exists l', i', j'. conjs; assumption.
    + assert (j = i) by lia. subst j. exists l, i, i. conjs. apply perm_in_refl; unfold withv; rewrite ?len_upd; lia.
Qed.
Lemma part_down_ok s e v : 0 <= s -> forall fuel l i j, s <= i -> i <= j <= e -> e < len l -> (Z.to_nat (j - i) <= fuel)%nat ->
  (forall k, s <= k < i -> lt v (l@k) = false) -> (forall k, j < k <= e -> lt (l@k) v = false) ->
  exists l' i' j', part_down fuel comp v l i j = Ok (l', i', j') /\ i <= i' /\ i' <= j' <= j /\ len l' = len l /\
    (forall k, s <= k < i' -> lt v (l'@k) = false) /\ (forall k, j' < k <= e -> lt (l'@k) v = false) /\
    perm_in s (e + 1) (withv l i v) (withv l' j' v).
Proof.
  intros Hs. induction fuel as [|fuel IH]; intros l i j Hi Hj He Hf HA HB; cbn [part_down].
  - destruct (Z.ltb_spec i j); [lia|]. assert (j = i) by lia. subst j.
    exists l, i, i. conjs. apply perm_in_refl; unfold withv; rewrite ?len_upd; lia.
  - destruct (Z.ltb_spec i j) as [Hij|Hij].
    + rewrite (rdz_at d) by (unfold inr in *; lia). cbn [bind]. rewrite comp_lt. destruct (lt (l@j) v) eqn:Q.
      * rewrite wr_ok by (unfold inr in *; lia). cbn [bind]. exists (upd l (Z.to_nat i) (l@j)), (i + 1), j.
        split; [reflexivity|]. split; [lia|]. split; [lia|]. split; [apply len_upd|].
        split; [|split].
        -- intros k Hk. rewrite at_upd by (unfold inr; lia). destruct (Z.eqb_spec k i); [apply (asym lt SWO); exact Q|]. apply HA. lia.
        -- intros k Hk. rewrite at_upd by (unfold inr; lia). destruct (Z.eqb_spec k i); [lia|]. apply HB. lia.
        -- rewrite swp_hole by (unfold inr in *; lia). apply perm_in_swp; unfold withv; rewrite ?len_upd; lia.
      * destruct (IH l i (j - 1)) as (l' & i' & j' & E & R1 & R2 & R3 & R4 & R5 & R6); try lia; try assumption.
        { intros k Hk. destruct (Z.eq_dec k j) as [->|N]; [exact Q|]. apply HB. lia. }
        exists l', i', j'. conjs; assumption.
    + assert (j = i) by lia. subst j. exists l, i, i. conjs. apply perm_in_refl; unfold withv; rewrite ?len_upd; lia.
Qed.
Lemma part_loop_ok s e v : 0 <= s -> forall fuel l i j, s <= i -> i <= j <= e -> e < len l -> (Z.to_nat (j - i) <= fuel)%nat ->
  (forall k, s <= k < i -> lt v (l@k) = false) -> (forall k, j < k <= e -> lt (l@k) v = false) ->
  exists l' i', part_loop fuel comp v l i j = Ok (l', i') /\ s <= i' <= e /\ len l' = len l /\
    (forall k, s <= k < i' -> lt v (l'@k) = false) /\ (forall k, i' < k <= e -> lt (l'@k) v = false) /\
    perm_in s (e + 1) (withv l j v) (withv l' i' v).
Proof.
  intros Hs. induction fuel as [|fuel IH]; intros l i j Hi Hj He Hf HA HB; cbn [part_loop].
  - destruct (Z.ltb_spec i j); [lia|]. assert (j = i) by lia. subst j.
    exists l, i. conjs. apply perm_in_refl; unfold withv; rewrite ?len_upd; lia.
  - destruct (Z.ltb_spec i j) as [Hij|Hij].
    + destruct (part_up_ok s e v Hs (length l) l i j) as (l1 & i1 & j1 & E & R1 & R2 & R3 & R4 & R5 & R6 & R7); try lia; try assumption; [unfold len in *; lia|].
      rewrite E. cbn [bind].
      destruct (part_down_ok s e v Hs (length l1) l1 i1 j1) as (l2 & i2 & j2 & E2 & Q1 & Q2 & Q3 & Q4 & Q5 & Q6); try lia; try assumption; [unfold len in *; lia|].
      rewrite E2. cbn [bind].
      destruct (IH l2 i2 j2) as (l3 & i3 & E3 & S1 & S2 & S3 & S4 & S5); try lia; try assumption.
      exists l3, i3. conjs. eapply perm_in_trans; [exact R7|]. eapply perm_in_trans; [exact Q6|exact S5].
    + assert (j = i) by lia. subst j. exists l, i. conjs. apply perm_in_refl; unfold withv; rewrite ?len_upd; lia.
Qed.

Definition selected (s e t : Z) (l l' : list T) : Prop :=
  perm_in s (e + 1) l l' /\ (forall k, s <= k < t -> lt (l'@t) (l'@k) = false) /\ (forall k, t < k <= e -> lt (l'@k) (l'@t) = false).

Lemma py_partition_ok : forall fuel l s e t, 0 <= s -> s <= t <= e -> e < len l -> (Z.to_nat (e - s) < fuel)%nat ->
  exists l', py_partition fuel comp l s e t = Ok l' /\ selected s e t l l'.
Proof.
  induction fuel as [|fuel IH]; intros l s e t Hs Ht He Hf; [lia|]. cbn [py_partition].
  destruct (Z.eqb_spec t e) as [->|Nte].
  - destruct (find_max_ok (Z.to_nat (e - s)) l s e) as (m & E & C & L & G); [lia|lia|unfold inr; lia|].
    rewrite E. cbn [bind]. destruct (Z.eqb_spec m e) as [->|Nm].
    + exists l. split; [reflexivity|]. split; [apply perm_in_refl; lia|]. split; [intros k Hk; apply G; lia|intros; lia].
    + rewrite (swap_ok d) by (unfold inr; lia). eexists. split; [reflexivity|]. split; [apply perm_in_swp; lia|].
      split; [|intros; lia]. intros k Hk. rewrite !at_swp by (unfold inr; lia).
      destruct (Z.eqb_spec e m); [lia|]. rewrite Z.eqb_refl. destruct (Z.eqb_spec k m); [exact L|].
      destruct (Z.eqb_spec k e); [lia|]. apply G. lia.
  - destruct (Z.eqb_spec t s) as [->|Nts].
    + destruct (find_min_ok (Z.to_nat (e - s)) l (s + 1) s) as (m & E & C & L & G); [lia|lia|unfold inr; lia|].
      rewrite E. cbn [bind]. destruct (Z.eqb_spec m s) as [->|Nm].
      * exists l. split; [reflexivity|]. split; [apply perm_in_refl; lia|]. split; [intros; lia|intros k Hk; apply G; lia].
      * rewrite (swap_ok d) by (unfold inr; lia). eexists. split; [reflexivity|]. split; [apply perm_in_swp; lia|].
        split; [intros; lia|]. intros k Hk. rewrite !at_swp by (unfold inr; lia).
        destruct (Z.eqb_spec s m); [lia|]. rewrite Z.eqb_refl. destruct (Z.eqb_spec k m); [exact L|].
        destruct (Z.eqb_spec k s); [lia|]. apply G. lia.
    + rewrite (rdz_at d) by (unfold inr; lia). cbn [bind].
      destruct (part_loop_ok s e (l@e) Hs (length l) l s e) as (l1 & i & E & R1 & R2 & R3 & R4 & R5); try lia; try (intros; lia); [unfold len in *; lia|].
      rewrite E. cbn [bind]. rewrite wr_ok by (unfold inr; lia). cbn [bind].
      assert (W0 : withv l e (l@e) = l).
      { apply upd_same. apply nth_error_at. unfold inr; lia. }
      rewrite W0 in R5. unfold withv in R5. set (l2 := upd l1 (Z.to_nat i) (l@e)) in *.
      assert (A2 : forall k, 0 <= k -> l2@k = if k =? i then l@e else l1@k) by (intros; apply at_upd; unfold inr; lia).
      assert (Hl2 : len l2 = len l) by (unfold l2; rewrite len_upd; exact R2).
      assert (Ai : l2@i = l@e) by (rewrite A2 by lia; rewrite Z.eqb_refl; reflexivity).
      assert (B1 : forall k, s <= k < i -> lt (l2@i) (l2@k) = false).
      { intros k Hk. rewrite Ai, A2 by lia. destruct (Z.eqb_spec k i); [lia|]. apply R3. lia. }
      assert (B2 : forall k, i < k <= e -> lt (l2@k) (l2@i) = false).
      { intros k Hk. rewrite Ai, A2 by lia. destruct (Z.eqb_spec k i); [lia|]. apply R4. lia. }
      destruct (Z.eqb_spec i t) as [->|Nit].
      * exists l2. split; [reflexivity|]. split; [exact R5|]. split; assumption.
      * rewrite Z.gtb_ltb. destruct (Z.ltb_spec t i) as [Hti|Hti].
        -- destruct (IH l2 s (i - 1) t) as (l3 & E3 & P3 & S1 & S2); [lia|lia|lia|lia|]. exists l3. split; [exact E3|].
           assert (F : forall k, i <= k <= e -> l3@k = l2@k) by (intros; apply (perm_in_at d s (i - 1 + 1)); [exact P3|lia|lia]).
           assert (G : lt (l2@i) (l3@t) = false).
           { apply (perm_in_forall d s (i - 1 + 1) l2 l3 (fun y => lt (l2@i) y = false)); [exact P3|intros; apply B1; lia|lia]. }
           split; [|split].
           ++ eapply perm_in_trans; [exact R5|]. apply (perm_in_widen s (i - 1 + 1)); [exact P3|lia|lia].
           ++ intros k Hk. apply S1. lia.
           ++ intros k Hk. destruct (Z_lt_ge_dec k i); [apply S2; lia|]. rewrite (F k) by lia.
              apply (letr lt SWO _ (l2@i)); [exact G|]. destruct (Z.eq_dec k i) as [->|N]; [apply (lerefl lt SWO)|apply B2; lia].
        -- destruct (IH l2 (i + 1) e t) as (l3 & E3 & P3 & S1 & S2); [lia|lia|lia|lia|]. exists l3. split; [exact E3|].
           assert (F : forall k, s <= k <= i -> l3@k = l2@k) by (intros; apply (perm_in_at d (i + 1) (e + 1)); [exact P3|lia|lia]).
           assert (G : lt (l3@t) (l2@i) = false).
           { apply (perm_in_forall d (i + 1) (e + 1) l2 l3 (fun y => lt y (l2@i) = false)); [exact P3|intros; apply B2; lia|lia]. }
           split; [|split].
           ++ eapply perm_in_trans; [exact R5|]. apply (perm_in_widen (i + 1) (e + 1)); [exact P3|lia|lia].
           ++ intros k Hk. destruct (Z_lt_ge_dec i k); [apply S1; lia|]. rewrite (F k) by lia.
              apply (letr lt SWO _ (l2@i)); [|exact G]. destruct (Z.eq_dec k i) as [->|N]; [apply (lerefl lt SWO)|apply B1; lia].
           ++ intros k Hk. apply S2. lia.
Qed.
End SelectP.
