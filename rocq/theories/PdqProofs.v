(** Proofs about pdqsort. *)
From Coq Require Import Sorting.Sorted.
From Verif Require Import Base PdqModel PdqSpec.
Ltac Zify.zify_post_hook ::= Z.to_euclidean_division_equations.

(** ** Lists as arrays *)
Section Arrays.
Context {T : Type}.
Variable d : T.

Definition len (l : list T) : Z := Z.of_nat (length l).
(** [l @ i] for 0 <= i < len l *)
Definition at_ (l : list T) (i : Z) : T := nth (Z.to_nat i) l d.
Definition inr (l : list T) (i : Z) : Prop := 0 <= i < len l.
Definition swp (l : list T) (i j : Z) : list T :=
  upd (upd l (Z.to_nat i) (at_ l j)) (Z.to_nat j) (at_ l i).

Lemma upd_length {A} (l : list A) n x : length (upd l n x) = length l.
Proof. revert n. induction l as [|y l IH]; intros [|n]; cbn; auto. Qed.
Lemma nth_upd (l : list T) n m x : (n < length l)%nat ->
  nth m (upd l n x) d = if Nat.eqb m n then x else nth m l d.
Proof.
  revert n m. induction l as [|y l IH]; intros n m H; [cbn in H; lia|].
  destruct n, m; cbn in *; try reflexivity. apply IH. lia.
Qed.
Lemma nth_error_upd {A} (l : list A) n m x : (n < length l)%nat ->
  nth_error (upd l n x) m = if Nat.eqb m n then Some x else nth_error l m.
Proof.
  revert n m. induction l as [|y l IH]; intros n m H; [cbn in H; lia|].
  destruct n, m; cbn in *; try reflexivity. apply IH. lia.
Qed.
Lemma upd_upd {A} (l : list A) n x y : upd (upd l n x) n y = upd l n y.
Proof. revert n. induction l as [|z l IH]; intros [|n]; cbn; auto. rewrite IH. reflexivity. Qed.
Lemma upd_comm {A} (l : list A) n m x y : n <> m -> upd (upd l n x) m y = upd (upd l m y) n x.
Proof.
  revert n m. induction l as [|z l IH]; intros [|n] [|m] H; cbn; auto; [congruence|].
  rewrite IH by congruence. reflexivity.
Qed.
Lemma upd_same {A} (l : list A) n x : nth_error l n = Some x -> upd l n x = l.
Proof. revert n. induction l as [|z l IH]; intros [|n] H; cbn in *; try congruence. rewrite IH by assumption. reflexivity. Qed.
Lemma map_upd {A B} (f : A -> B) l n x : map f (upd l n x) = upd (map f l) n (f x).
Proof. revert n. induction l as [|z l IH]; intros [|n]; cbn; auto. rewrite IH. reflexivity. Qed.

Lemma len_swp l i j : len (swp l i j) = len l.
Proof. unfold len, swp. rewrite !upd_length. reflexivity. Qed.
Lemma at_swp l i j k : inr l i -> inr l j -> 0 <= k ->
  at_ (swp l i j) k = if k =? i then at_ l j else if k =? j then at_ l i else at_ l k.
Proof.
  unfold inr, len, swp, at_. intros Hi Hj Hk. rewrite nth_upd by (rewrite upd_length; lia).
  rewrite nth_upd by lia.
  destruct (Nat.eqb_spec (Z.to_nat k) (Z.to_nat j)), (Nat.eqb_spec (Z.to_nat k) (Z.to_nat i)), (Z.eqb_spec k i), (Z.eqb_spec k j); subst; try lia; reflexivity.
Qed.

Lemma at_ext l l' : len l = len l' -> (forall i, inr l i -> at_ l i = at_ l' i) -> l = l'.
Proof.
  unfold len, inr, at_. intros HL H. apply (nth_ext _ _ d d); [lia|].
  intros n Hn. specialize (H (Z.of_nat n)). rewrite Nat2Z.id in H. apply H. unfold len. lia.
Qed.

Lemma swp_perm l i j : inr l i -> inr l j -> Permutation l (swp l i j).
Proof.
  intros Hi Hj. apply (Permutation_nth l (swp l i j) d). split; [unfold swp; rewrite !upd_length; reflexivity|].
  exists (fun n => if Nat.eqb n (Z.to_nat i) then Z.to_nat j else if Nat.eqb n (Z.to_nat j) then Z.to_nat i else n).
  unfold inr, len in *.
  split; [|split].
  - intros n Hn. destruct (Nat.eqb_spec n (Z.to_nat i)), (Nat.eqb_spec n (Z.to_nat j)); lia.
  - intros n m Hn Hm. destruct (Nat.eqb_spec n (Z.to_nat i)), (Nat.eqb_spec n (Z.to_nat j)),
      (Nat.eqb_spec m (Z.to_nat i)), (Nat.eqb_spec m (Z.to_nat j)); lia.
  - intros n Hn. pose proof (at_swp l i j (Z.of_nat n) ltac:(unfold inr, len; lia) ltac:(unfold inr, len; lia) ltac:(lia)) as E.
    unfold at_ in E. rewrite Nat2Z.id in E. rewrite E.
    destruct (Nat.eqb_spec n (Z.to_nat i)), (Nat.eqb_spec n (Z.to_nat j)), (Z.eqb_spec (Z.of_nat n) i), (Z.eqb_spec (Z.of_nat n) j);
      subst; try lia; reflexivity.
Qed.

(** ** Permutations of a range *)
Definition perm_in (b e : Z) (l l' : list T) : Prop :=
  0 <= b <= e /\ e <= len l /\ Permutation l l' /\
  firstn (Z.to_nat b) l = firstn (Z.to_nat b) l' /\ skipn (Z.to_nat e) l = skipn (Z.to_nat e) l'.

Lemma perm_in_len b e l l' : perm_in b e l l' -> len l' = len l.
Proof. intros (_ & _ & P & _). unfold len. rewrite (Permutation_length P). reflexivity. Qed.
Lemma perm_in_refl b e l : 0 <= b <= e -> e <= len l -> perm_in b e l l.
Proof. intros; repeat split; auto; lia. Qed.
Lemma perm_in_trans b e l m n : perm_in b e l m -> perm_in b e m n -> perm_in b e l n.
Proof.
  intros (H1 & H2 & P & F & S) (_ & _ & P' & F' & S').
  repeat split; try lia; [eapply perm_trans; eassumption|congruence|congruence].
Qed.
Lemma skipn_add {A} (l : list A) n m : skipn n (skipn m l) = skipn (m + n) l.
Proof.
  revert m. induction l as [|x l IH]; intros [|m]; cbn [skipn Nat.add]; auto. destruct n; reflexivity.
Qed.
Lemma perm_in_widen b e b' e' l l' : perm_in b e l l' -> 0 <= b' <= b -> e <= e' <= len l -> perm_in b' e' l l'.
Proof.
  intros (H1 & H2 & P & F & S) Hb He. repeat split; try lia; auto.
  - replace (Z.to_nat b') with (Nat.min (Z.to_nat b') (Z.to_nat b)) by lia.
    rewrite <- !firstn_firstn, F. reflexivity.
  - replace (Z.to_nat e') with (Z.to_nat e + Z.to_nat (e' - e))%nat by lia.
    rewrite <- !skipn_add, S. reflexivity.
Qed.
Lemma nth_skipn {A} (l : list A) n m x : nth n (skipn m l) x = nth (m + n) l x.
Proof. revert m. induction l as [|y l IH]; intros [|m]; cbn [skipn Nat.add nth]; auto. destruct n; reflexivity. Qed.
Lemma nth_firstn {A} (l : list A) n m x : (n < m)%nat -> nth n (firstn m l) x = nth n l x.
Proof. revert n m. induction l as [|y l IH]; intros [|n] [|m] H; cbn; auto; try lia. apply IH; lia. Qed.
Lemma perm_in_at b e l l' i : perm_in b e l l' -> 0 <= i -> i < b \/ e <= i -> at_ l' i = at_ l i.
Proof.
  intros (H1 & H2 & P & F & S) Hi [H|H]; unfold at_.
  - rewrite <- (nth_firstn l' _ (Z.to_nat b)), <- (nth_firstn l _ (Z.to_nat b)) by lia. congruence.
  - replace (Z.to_nat i) with (Z.to_nat e + Z.to_nat (i - e))%nat by lia.
    rewrite <- !nth_skipn. congruence.
Qed.
Lemma mid_eq b e (l : list T) : 0 <= b <= e -> e <= len l ->
  l = firstn (Z.to_nat b) l ++ firstn (Z.to_nat (e - b)) (skipn (Z.to_nat b) l) ++ skipn (Z.to_nat e) l.
Proof.
  intros H1 H2. replace (Z.to_nat e) with (Z.to_nat b + Z.to_nat (e - b))%nat by lia.
  rewrite <- skipn_add. rewrite firstn_skipn, firstn_skipn. reflexivity.
Qed.
Lemma in_mid b e (l : list T) x : 0 <= b <= e -> e <= len l ->
  In x (firstn (Z.to_nat (e - b)) (skipn (Z.to_nat b) l)) <-> exists i, b <= i < e /\ at_ l i = x.
Proof.
  intros H1 H2. unfold len in H2. split.
  - intros H. apply (In_nth _ _ d) in H. destruct H as (n & Hn & E).
    rewrite firstn_length, skipn_length in Hn. rewrite nth_firstn, nth_skipn in E by lia.
    exists (b + Z.of_nat n). split; [lia|]. unfold at_. rewrite <- E. f_equal. lia.
  - intros (i & Hi & E). unfold at_ in E.
    replace (Z.to_nat i) with (Z.to_nat b + Z.to_nat (i - b))%nat in E by lia.
    rewrite <- nth_skipn, <- (nth_firstn _ _ (Z.to_nat (e - b))) in E by lia. rewrite <- E.
    apply nth_In. rewrite firstn_length, skipn_length. lia.
Qed.
Lemma perm_in_mid b e l l' : perm_in b e l l' ->
  Permutation (firstn (Z.to_nat (e - b)) (skipn (Z.to_nat b) l)) (firstn (Z.to_nat (e - b)) (skipn (Z.to_nat b) l')).
Proof.
  intros H. pose proof (perm_in_len _ _ _ _ H) as HL. destruct H as (H1 & H2 & P & F & S).
  rewrite (mid_eq b e l), (mid_eq b e l') in P by lia. rewrite F, S in P.
  apply Permutation_app_inv_l in P. apply Permutation_app_inv_r in P. exact P.
Qed.
Lemma perm_in_forall b e l l' (P : T -> Prop) : perm_in b e l l' ->
  (forall i, b <= i < e -> P (at_ l i)) -> forall i, b <= i < e -> P (at_ l' i).
Proof.
  intros H HP i Hi. pose proof (perm_in_len _ _ _ _ H) as HL. pose proof (perm_in_mid _ _ _ _ H) as M.
  destruct H as (H1 & H2 & _).
  assert (E : In (at_ l' i) (firstn (Z.to_nat (e - b)) (skipn (Z.to_nat b) l'))) by (apply in_mid; try lia; exists i; auto).
  apply (Permutation_in _ (Permutation_sym M)) in E. apply in_mid in E; try lia. destruct E as (j & Hj & <-). auto.
Qed.
Lemma perm_in_swp b e l i j : 0 <= b -> b <= i < e -> b <= j < e -> e <= len l -> perm_in b e l (swp l i j).
Proof.
  intros Hb Hi Hj He. repeat split; try lia.
  - apply swp_perm; unfold inr; lia.
  - apply (nth_ext _ _ d d); [rewrite !firstn_length; unfold swp; rewrite !upd_length; reflexivity|].
    intros n Hn. rewrite firstn_length in Hn. rewrite !nth_firstn by lia.
    pose proof (at_swp l i j (Z.of_nat n)) as E. unfold at_ in E. rewrite Nat2Z.id in E.
    rewrite E by (unfold inr; lia). destruct (Z.eqb_spec (Z.of_nat n) i); [lia|]. destruct (Z.eqb_spec (Z.of_nat n) j); [lia|]. reflexivity.
  - apply (nth_ext _ _ d d); [rewrite !skipn_length; unfold swp; rewrite !upd_length; reflexivity|].
    intros n Hn. rewrite !nth_skipn.
    pose proof (at_swp l i j (e + Z.of_nat n)) as E. unfold at_ in E.
    replace (Z.to_nat (e + Z.of_nat n)) with (Z.to_nat e + n)%nat in E by lia.
    rewrite E by (unfold inr; lia). destruct (Z.eqb_spec (e + Z.of_nat n) i); [lia|]. destruct (Z.eqb_spec (e + Z.of_nat n) j); [lia|]. reflexivity.
Qed.
Lemma perm_in_perm b e l l' : perm_in b e l l' -> Permutation l l'.
Proof. intros (_ & _ & P & _). exact P. Qed.

(** ** Cells *)
Definition full (l : list T) : @arr T := map Some l.
Definition hole (l : list T) (h : Z) : @arr T := upd (map Some l) (Z.to_nat h) None.

Lemma full_len l : zlen (full l) = len l.
Proof. unfold zlen, full, len. rewrite map_length. reflexivity. Qed.
Lemma hole_len l h : zlen (hole l h) = len l.
Proof. unfold zlen, hole, len. rewrite upd_length, map_length. reflexivity. Qed.
Lemma full_length l : length (full l) = length l.
Proof. apply map_length. Qed.
Lemma hole_length l h : length (hole l h) = length l.
Proof. unfold hole. rewrite upd_length, map_length. reflexivity. Qed.

Lemma nth_error_at l i : inr l i -> nth_error l (Z.to_nat i) = Some (at_ l i).
Proof. unfold inr, len, at_. intros H. apply nth_error_nth'. lia. Qed.
Lemma cell_full l i : inr l i -> cell (full l) i = Ok (Some (at_ l i)).
Proof.
  intros H. unfold cell, rdz, rd, full. unfold inr in H. destruct (Z.ltb_spec i 0); [lia|].
  rewrite nth_error_map, nth_error_at by exact H. reflexivity.
Qed.
Lemma get_full l i : inr l i -> get (full l) i = Ok (at_ l i).
Proof. intros H. unfold get. rewrite cell_full by exact H. reflexivity. Qed.
Lemma get_full_oob l i : ~ inr l i -> get (full l) i = OOB.
Proof.
  unfold inr, len. intros H. unfold get, cell, rdz, rd, full. destruct (Z.ltb_spec i 0); [reflexivity|].
  rewrite nth_error_map. replace (nth_error l (Z.to_nat i)) with (@None T); [reflexivity|].
  symmetry. apply nth_error_None. lia.
Qed.
Lemma cell_hole l h i : inr l i -> inr l h -> cell (hole l h) i = Ok (if i =? h then None else Some (at_ l i)).
Proof.
  unfold inr, len. intros H Hh. unfold cell, rdz, rd, hole. destruct (Z.ltb_spec i 0); [lia|].
  rewrite nth_error_upd by (rewrite map_length; lia). rewrite nth_error_map, nth_error_at by exact H.
  destruct (Nat.eqb_spec (Z.to_nat i) (Z.to_nat h)), (Z.eqb_spec i h); try lia; reflexivity.
Qed.
Lemma get_hole l h i : inr l i -> inr l h -> i <> h -> get (hole l h) i = Ok (at_ l i).
Proof.
  intros H Hh N. unfold get. rewrite cell_hole by assumption. destruct (Z.eqb_spec i h); [contradiction|reflexivity].
Qed.
Lemma set_cell_ok (a : list (option T)) i c : 0 <= i < zlen a -> set_cell a i c = Ok (upd a (Z.to_nat i) c).
Proof.
  intros H. unfold set_cell. destruct (Z.leb_spec 0 i); [|lia]. destruct (Z.ltb_spec i (zlen a)); [|lia]. reflexivity.
Qed.
Lemma take_full l i : inr l i -> take (full l) i = Ok (at_ l i, hole l i).
Proof.
  intros H. unfold take. rewrite get_full by exact H. cbn [bind].
  rewrite set_cell_ok by (rewrite full_len; exact H). reflexivity.
Qed.
Lemma put_hole l h : inr l h -> put (hole l h) h (at_ l h) = Ok (full l).
Proof.
  intros H. unfold put. rewrite set_cell_ok by (rewrite hole_len; exact H).
  unfold hole, full. rewrite upd_upd. f_equal. apply upd_same. rewrite nth_error_map, nth_error_at by exact H. reflexivity.
Qed.
Lemma move_hole l h j : inr l h -> inr l j -> j <> h -> move (hole l h) h j = Ok (hole (swp l h j) j).
Proof.
  intros Hh Hj N. unfold move. rewrite cell_hole by assumption. destruct (Z.eqb_spec j h); [contradiction|]. cbn [bind].
  rewrite set_cell_ok by (rewrite hole_len; exact Hj). cbn [bind].
  rewrite set_cell_ok by (unfold zlen; rewrite upd_length; fold (zlen (hole l h)); rewrite hole_len; exact Hh).
  f_equal. unfold hole, swp. unfold inr in *.
  rewrite !map_upd. rewrite upd_upd.
  rewrite (upd_comm (map Some l) (Z.to_nat h) (Z.to_nat j)) by lia. rewrite upd_upd.
  apply upd_comm. lia.
Qed.
Lemma move_hole_self l h : inr l h -> move (hole l h) h h = Ok (hole l h).
Proof.
  intros Hh. unfold move. rewrite cell_hole by assumption. rewrite Z.eqb_refl. cbn [bind].
  rewrite set_cell_ok by (rewrite hole_len; exact Hh). cbn [bind].
  rewrite set_cell_ok by (unfold zlen; rewrite upd_length; fold (zlen (hole l h)); rewrite hole_len; exact Hh).
  unfold hole. rewrite !upd_upd. reflexivity.
Qed.
Lemma swap_full l i j : inr l i -> inr l j -> iter_swap (full l) i j = Ok (full (swp l i j)).
Proof.
  intros Hi Hj. unfold iter_swap. rewrite !get_full by assumption. cbn [bind]. unfold put.
  rewrite set_cell_ok by (rewrite full_len; assumption). cbn [bind].
  rewrite set_cell_ok by (unfold zlen; rewrite upd_length; fold (zlen (full l)); rewrite full_len; assumption).
  unfold full, swp. rewrite !map_upd. reflexivity.
Qed.
Lemma swap_hole l h i j : inr l h -> inr l i -> inr l j -> i <> h -> j <> h ->
  iter_swap (hole l h) i j = Ok (hole (swp l i j) h).
Proof.
  intros Hh Hi Hj N1 N2. unfold iter_swap. rewrite !get_hole by assumption. cbn [bind]. unfold put.
  rewrite set_cell_ok by (rewrite hole_len; assumption). cbn [bind].
  rewrite set_cell_ok by (unfold zlen; rewrite upd_length; fold (zlen (hole l h)); rewrite hole_len; assumption).
  unfold hole, swp. rewrite !map_upd. unfold inr in *. f_equal.
  rewrite (upd_comm _ (Z.to_nat h) (Z.to_nat i)) by lia. rewrite (upd_comm _ (Z.to_nat h) (Z.to_nat j)) by lia. reflexivity.
Qed.
Lemma values_full l : values (full l) = Ok l.
Proof. induction l as [|x l IH]; [reflexivity|]. cbn [full map values]. unfold full in IH. rewrite IH. reflexivity. Qed.
End Arrays.


Arguments len : simpl never.
Ltac atlia := unfold inr in *; rewrite ?len_swp in *; lia.
Ltac swp_cases :=
  repeat (rewrite at_swp by atlia);
  repeat match goal with |- context [?a =? ?b] => destruct (Z.eqb_spec a b); try lia end.

Section Algo.
Context {T : Type}.
Variable d : T.
Variable lt : T -> T -> bool.
Hypothesis ASYM : forall x y, lt x y = true -> lt y x = false.
Variable comp : T -> T -> bool.
Variable l0 : list T.
Notation "l @ i" := (at_ d l i) (at level 9, format "l @ i").
(** The comparator agrees with the order on elements at different positions. *)
Hypothesis AG : forall l i j, Permutation l0 l -> inr l i -> inr l j -> i <> j ->
  comp (l@i) (l@j) = lt (l@i) (l@j).

Definition le (x y : T) : Prop := lt y x = false.
Definition slt (x y : T) : Prop := lt x y = true.

Lemma lt_asym x y : slt x y -> le x y.
Proof. apply ASYM. Qed.
Lemma le_or x y : le x y \/ slt y x.
Proof. unfold le, slt. destruct (lt y x); auto. Qed.
Definition srt (l : list T) (b e : Z) : Prop := forall i j, b <= i < j -> j < e -> le (l@i) (l@j).

Definition guard_ok (guarded : bool) (l : list T) (b e : Z) : Prop :=
  guarded = true \/ (1 <= b /\ forall i, b <= i < e -> le (l@(b - 1)) (l@i)).

Lemma guard_ok_perm g l l' b e : guard_ok g l b e -> perm_in b e l l' -> guard_ok g l' b e.
Proof.
  intros [H|[H1 H2]] HP; [left; exact H|right]. split; [exact H1|].
  destruct (proj1 HP) as [Hb _].
  rewrite (perm_in_at d _ _ _ _ (b - 1) HP) by lia.
  apply (perm_in_forall d b e l l' (fun x => le (l@(b - 1)) x) HP H2).
Qed.

Lemma perm0 b e l l' : Permutation l0 l -> perm_in b e l l' -> Permutation l0 l'.
Proof. intros H H'. eapply perm_trans; [exact H|eapply perm_in_perm; exact H']. Qed.

(** ** Pivot selection *)

Lemma sort2_ok l i j b e : Permutation l0 l -> 0 <= b -> e <= len l -> b <= i < e -> b <= j < e -> i <> j ->
  exists l', sort2 comp (full l) i j = Ok (full l') /\ perm_in b e l l' /\ le (l'@i) (l'@j) /\
    (l' = l \/ (l' = swp d l i j /\ slt (l@j) (l@i))).
Proof.
  intros HP Hb He Hi Hj N. unfold sort2. rewrite !(get_full d) by atlia. cbn [bind].
  rewrite AG by (try assumption; atlia || congruence). destruct (lt l@j l@i) eqn:E.
  - rewrite (swap_full d) by atlia. eexists. split; [reflexivity|]. split; [apply perm_in_swp; lia|]. split.
    + swp_cases. apply lt_asym. exact E.
    + right. auto.
  - exists l. split; [reflexivity|]. split; [apply perm_in_refl; lia|]. auto.
Qed.

Lemma sort3_ok l i j k b e : Permutation l0 l -> 0 <= b -> e <= len l -> b <= i < e -> b <= j < e -> b <= k < e ->
  i <> j -> j <> k -> i <> k ->
  exists l', sort3 comp (full l) i j k = Ok (full l') /\ perm_in b e l l' /\ le (l'@i) (l'@j) /\ le (l'@j) (l'@k).
Proof.
  intros HP Hb He Hi Hj Hk N1 N2 N3. unfold sort3.
  destruct (sort2_ok l i j b e) as (l1 & -> & P1 & O1 & C1); try assumption; try lia. cbn [bind].
  pose proof (perm_in_len _ _ _ _ P1) as L1.
  destruct (sort2_ok l1 j k b e) as (l2 & -> & P2 & O2 & C2); try assumption; try lia; [eapply perm0; eassumption|]. cbn [bind].
  pose proof (perm_in_len _ _ _ _ P2) as L2.
  destruct (sort2_ok l2 i j b e) as (l3 & -> & P3 & O3 & C3); try assumption; try lia; [eapply perm0; [eapply perm0|]; eassumption|].
  exists l3. split; [reflexivity|]. split; [eapply perm_in_trans; [eapply perm_in_trans|]; eassumption|]. split; [exact O3|].
  destruct C3 as [->|[-> C3]]; [exact O2|].
  assert (E1 : (swp d l2 i j)@j = l2@i) by (swp_cases; try (subst; lia); reflexivity).
  assert (E2 : (swp d l2 i j)@k = l2@k) by (swp_cases; try (subst; lia); reflexivity).
  rewrite E1, E2. destruct C2 as [->|[-> C2]].
  - unfold slt, le in *. congruence.
  - assert (E3 : (swp d l1 j k)@i = l1@i) by (swp_cases; reflexivity).
    assert (E4 : (swp d l1 j k)@k = l1@j) by (swp_cases; reflexivity).
    rewrite E3, E4. exact O1.
Qed.

Definition median (l : list T) (b e : Z) : Prop :=
  (exists k, b < k < e /\ le (l@b) (l@k)) /\ (exists k, b < k < e /\ le (l@k) (l@b)).

Lemma choose_pivot_ok l b e : Permutation l0 l -> 0 <= b -> e <= len l -> 24 <= e - b ->
  exists l', choose_pivot comp (full l) b e = Ok (full l') /\ perm_in b e l l' /\ median l' b e.
Proof.
  intros HP Hb He Hsz. unfold choose_pivot, ninther_threshold. rewrite Z.gtb_ltb.
  rewrite (Z.quot_div_nonneg (e - b) 2) by lia. set (s2 := (e - b) / 2). assert (Hs2 : 2 * s2 <= e - b <= 2 * s2 + 1) by (unfold s2; lia).
  clearbody s2.
  destruct (Z.ltb_spec 128 (e - b)) as [Hn|Hn].
  - destruct (sort3_ok l b (b + s2) (e - 1) b e) as (l1 & -> & P1 & _); try assumption; try lia. cbn [bind].
    pose proof (perm_in_len _ _ _ _ P1) as L1. pose proof (perm0 _ _ _ _ HP P1) as Q1.
    destruct (sort3_ok l1 (b + 1) (b + (s2 - 1)) (e - 2) b e) as (l2 & -> & P2 & _); try assumption; try lia. cbn [bind].
    pose proof (perm_in_len _ _ _ _ P2) as L2. pose proof (perm0 _ _ _ _ Q1 P2) as Q2.
    destruct (sort3_ok l2 (b + 2) (b + (s2 + 1)) (e - 3) b e) as (l3 & -> & P3 & _); try assumption; try lia. cbn [bind].
    pose proof (perm_in_len _ _ _ _ P3) as L3. pose proof (perm0 _ _ _ _ Q2 P3) as Q3.
    destruct (sort3_ok l3 (b + (s2 - 1)) (b + s2) (b + (s2 + 1)) b e) as (l4 & -> & P4 & O1 & O2); try assumption; try lia. cbn [bind].
    pose proof (perm_in_len _ _ _ _ P4) as L4.
    rewrite (swap_full d) by (unfold inr; lia). eexists. split; [reflexivity|]. split.
    { eapply perm_in_trans; [exact P1|]. eapply perm_in_trans; [exact P2|]. eapply perm_in_trans; [exact P3|].
      eapply perm_in_trans; [exact P4|]. apply perm_in_swp; lia. }
    split; [exists (b + (s2 + 1))|exists (b + (s2 - 1))]; (split; [lia|]); swp_cases; assumption.
  - destruct (sort3_ok l (b + s2) b (e - 1) b e) as (l1 & -> & P1 & O1 & O2); try assumption; try lia.
    exists l1. split; [reflexivity|]. split; [exact P1|]. split; [exists (e - 1)|exists (b + s2)]; (split; [lia|assumption]).
Qed.

(** ** Scans (with the pivot moved out of cell [h]) *)

Lemma scan_up_ok test l h k : inr l h -> k < len l -> test (l@k) = false ->
  forall fuel first, h <= first < k -> k - first <= Z.of_nat fuel ->
  exists f, scan_up fuel test (hole l h) first = Ok f /\ first < f <= k /\ test (l@f) = false /\
    forall i, first < i < f -> test (l@i) = true.
Proof.
  intros Hh Hk Tk. induction fuel as [|fuel IH]; intros first Hf Hfu; [lia|].
  cbn [scan_up]. rewrite (get_hole d) by atlia. cbn [bind].
  destruct (test l@(first + 1)) eqn:E.
  - assert (first + 1 <> k) by congruence.
    destruct (IH (first + 1)) as (f & HE & Hb & Ht & Ha); [lia|lia|].
    exists f. split; [exact HE|]. split; [lia|]. split; [exact Ht|].
    intros i Hi. destruct (Z.eq_dec i (first + 1)) as [->|N]; [exact E|]. apply Ha; lia.
  - exists (first + 1). split; [reflexivity|]. split; [lia|]. split; [exact E|]. intros; lia.
Qed.

Lemma scan_down_ok test l h k : inr l h -> h < k -> test (l@k) = false ->
  forall fuel last, k < last <= len l -> last - k <= Z.of_nat fuel ->
  exists t, scan_down fuel test (hole l h) last = Ok t /\ k <= t < last /\ test (l@t) = false /\
    forall i, t < i < last -> test (l@i) = true.
Proof.
  intros Hh Hk Tk. induction fuel as [|fuel IH]; intros last Hf Hfu; [lia|].
  cbn [scan_down]. rewrite (get_hole d) by atlia. cbn [bind].
  destruct (test l@(last - 1)) eqn:E.
  - assert (last - 1 <> k) by congruence.
    destruct (IH (last - 1)) as (t & HE & Hb & Ht & Ha); [lia|lia|].
    exists t. split; [exact HE|]. split; [lia|]. split; [exact Ht|].
    intros i Hi. destruct (Z.eq_dec i (last - 1)) as [->|N]; [exact E|]. apply Ha; lia.
  - exists (last - 1). split; [reflexivity|]. split; [lia|]. split; [exact E|]. intros; lia.
Qed.

Lemma scan_down_guarded_ok test l h first : inr l h -> h < first ->
  forall fuel last, first <= last <= len l -> last - first <= Z.of_nat fuel ->
  exists t, scan_down_guarded fuel test (hole l h) first last = Ok t /\ first <= t <= last /\
    (forall i, t < i < last -> test (l@i) = true) /\
    ((t < last /\ test (l@t) = false) \/ (t = first /\ forall i, first <= i < last -> test (l@i) = true)).
Proof.
  intros Hh Hk. induction fuel as [|fuel IH]; intros last Hf Hfu; cbn [scan_down_guarded].
  { destruct (Z.ltb_spec first last); [lia|]. exists last. split; [reflexivity|]. split; [lia|]. split; [intros; lia|].
    right. split; [lia|intros; lia]. }
  destruct (Z.ltb_spec first last) as [L|L].
  2:{ exists last. split; [reflexivity|]. split; [lia|]. split; [intros; lia|]. right. split; [lia|intros; lia]. }
  rewrite (get_hole d) by atlia. cbn [bind].
  destruct (test l@(last - 1)) eqn:E.
  - destruct (IH (last - 1)) as (t & HE & Hb & Ha & Hc); [lia|lia|].
    exists t. split; [exact HE|]. split; [lia|]. split.
    + intros i Hi. destruct (Z.eq_dec i (last - 1)) as [->|N]; [exact E|]. apply Ha; lia.
    + destruct Hc as [[Hc1 Hc2]|[Hc1 Hc2]]; [left; split; [lia|exact Hc2]|right]. split; [exact Hc1|].
      intros i Hi. destruct (Z.eq_dec i (last - 1)) as [->|N]; [exact E|]. apply Hc2; lia.
  - exists (last - 1). split; [reflexivity|]. split; [lia|]. split; [intros; lia|]. left. split; [lia|exact E].
Qed.

Lemma scan_up_guarded_ok test l h last : inr l h -> last < len l ->
  forall fuel first, h <= first <= last -> last - first <= Z.of_nat fuel ->
  exists f, scan_up_guarded fuel test (hole l h) first last = Ok f /\ first <= f <= last /\
    (forall i, first < i < f -> test (l@i) = true) /\
    ((first < f /\ test (l@f) = false) \/ (f = last /\ forall i, first < i <= last -> test (l@i) = true)).
Proof.
  intros Hh Hk. induction fuel as [|fuel IH]; intros first Hf Hfu; cbn [scan_up_guarded].
  { destruct (Z.ltb_spec first last); [lia|]. exists first. split; [reflexivity|]. split; [lia|]. split; [intros; lia|].
    right. split; [lia|intros; lia]. }
  destruct (Z.ltb_spec first last) as [L|L].
  2:{ exists first. split; [reflexivity|]. split; [lia|]. split; [intros; lia|]. right. split; [lia|intros; lia]. }
  rewrite (get_hole d) by atlia. cbn [bind].
  destruct (test l@(first + 1)) eqn:E.
  - destruct (IH (first + 1)) as (t & HE & Hb & Ha & Hc); [lia|lia|].
    exists t. split; [exact HE|]. split; [lia|]. split.
    + intros i Hi. destruct (Z.eq_dec i (first + 1)) as [->|N]; [exact E|]. apply Ha; lia.
    + destruct Hc as [[Hc1 Hc2]|[Hc1 Hc2]]; [left; split; [lia|exact Hc2]|right]. split; [exact Hc1|].
      intros i Hi. destruct (Z.eq_dec i (first + 1)) as [->|N]; [exact E|]. apply Hc2; lia.
  - exists (first + 1). split; [reflexivity|]. split; [lia|]. split; [intros; lia|]. left. split; [lia|exact E].
Qed.

Lemma swp_self l i : inr l i -> swp d l i i = l.
Proof.
  intros H. apply (at_ext d); [apply len_swp|]. intros k Hk.
  assert (0 <= k) by atlia. swp_cases; subst; reflexivity.
Qed.

Lemma place_pivot_ok l b pos : inr l b -> inr l pos ->
  place_pivot (hole l b) b pos (l@b) = Ok (full (swp d l b pos)).
Proof.
  intros Hb Hp. unfold place_pivot. destruct (Z.eq_dec pos b) as [->|N].
  - rewrite move_hole_self by assumption. cbn [bind]. rewrite (put_hole d) by assumption. rewrite swp_self by assumption. reflexivity.
  - rewrite (move_hole d) by assumption. cbn [bind].
    replace (l@b) with ((swp d l b pos)@pos) by (swp_cases; try (subst; lia); reflexivity).
    apply (put_hole d). atlia.
Qed.

(** ** Partition right *)

(** What a right partition must deliver for the range [b, e) and pivot [p]. *)
Definition right_post (l' : list T) (b e pos : Z) (p : T) : Prop :=
  b <= pos < e /\ l'@pos = p /\ (forall i, b <= i < pos -> slt (l'@i) p) /\ (forall i, pos < i < e -> le p (l'@i)).

(** The state between the two parts: cells (b, f) are smaller than the pivot, [f, e) not. *)
Definition split_at (l : list T) (b e f : Z) : Prop :=
  b < f <= e /\ (forall i, b < i < f -> slt (l@i) (l@b)) /\ (forall i, f <= i < e -> le (l@b) (l@i)).

Lemma place_right l l1 b e f : 0 <= b -> e <= len l -> perm_in (b + 1) e l l1 -> split_at l1 b e f ->
  exists l', place_pivot (hole l1 b) b (f - 1) (l@b) = Ok (full l') /\ perm_in b e l l' /\ right_post l' b e (f - 1) (l@b).
Proof.
  intros Hb He P (Hf & Hlo & Hhi). pose proof (perm_in_len _ _ _ _ P) as L.
  assert (E : l1@b = l@b) by (apply (perm_in_at d _ _ _ _ b P); lia).
  rewrite <- E. rewrite place_pivot_ok by (unfold inr; lia).
  eexists. split; [reflexivity|]. split.
  { eapply perm_in_trans; [eapply perm_in_widen; [exact P|lia|lia]|]. apply perm_in_swp; lia. }
  split; [lia|]. split; [swp_cases; subst; congruence|]. split; intros i Hi; swp_cases.
  - apply Hlo; lia.
  - apply Hlo; lia.
  - apply Hhi; lia.
Qed.

Definition RI (l : list T) (b e f t : Z) : Prop :=
  b < f < e /\ f - 1 <= t < e /\ (forall i, b < i < f -> slt (l@i) (l@b)) /\ le (l@b) (l@f) /\
  (forall i, t < i < e -> le (l@b) (l@i)) /\ (f < t -> slt (l@t) (l@b)).

Lemma test_lt l b i : Permutation l0 l -> inr l b -> inr l i -> i <> b -> comp (l@i) (l@b) = lt (l@i) (l@b).
Proof. intros; apply AG; auto. Qed.

Lemma right_head_ok l b e : Permutation l0 l -> 0 <= b -> e <= len l -> (exists k, b < k < e /\ le (l@b) (l@k)) ->
  exists f t, partition_right_head comp (full l) b e = Ok (l@b, hole l b, f, t) /\ RI l b e f t.
Proof.
  intros HP Hb He (k & Hk & Hkl). unfold partition_right_head.
  rewrite (take_full d) by atlia. cbn [bind]. rewrite hole_length.
  assert (TL : forall i, b < i < e -> comp (l@i) (l@b) = lt (l@i) (l@b)) by (intros; apply test_lt; try assumption; atlia).
  destruct (scan_up_ok (fun x => comp x (l@b)) l b k) with (fuel := S (length l)) (first := b) as (f & -> & Hf & Tf & Ta);
    [atlia|lia|cbn beta; rewrite TL by lia; exact Hkl|lia|unfold len in *; lia|].
  cbn [bind]. cbn beta in Tf, Ta. rewrite TL in Tf by lia.
  assert (Ta' : forall i, b < i < f -> slt (l@i) (l@b)) by (intros i Hi; unfold slt; rewrite <- TL by lia; apply Ta; lia).
  destruct (Z.eqb_spec (f - 1) b) as [Ef|Nf].
  - destruct (scan_down_guarded_ok (fun x => negb (comp x (l@b))) l b f) with (fuel := S (length l)) (last := e) as (t & -> & Ht & Tt & Tc);
      [atlia|lia|lia|unfold len in *; lia|].
    cbn [bind]. cbn beta in *. exists f, t. split; [reflexivity|].
    assert (Tt' : forall i, t < i < e -> le (l@b) (l@i)).
    { intros i Hi. unfold le. rewrite <- TL by lia. apply negb_true_iff. apply Tt; lia. }
    destruct Tc as [[Tc1 Tc2]|[-> Tc2]].
    + apply negb_false_iff in Tc2. rewrite TL in Tc2 by lia. repeat split; try lia; auto.
    + repeat split; try lia; auto.
  - destruct (scan_down_ok (fun x => negb (comp x (l@b))) l b (f - 1)) with (fuel := S (length l)) (last := e) as (t & -> & Ht & Tt & Tc);
      [atlia|lia|cbn beta; rewrite TL by lia; apply negb_false_iff; apply Ta'; lia|lia|unfold len in *; lia|].
    cbn [bind]. cbn beta in *. exists f, t. split; [reflexivity|].
    apply negb_false_iff in Tt. rewrite TL in Tt by lia.
    repeat split; try lia; auto.
    intros i Hi. unfold le. rewrite <- TL by lia. apply negb_true_iff. apply Tc; lia.
Qed.

Lemma RI_stop l b e f t : RI l b e f t -> t <= f -> split_at l b e f.
Proof.
  intros (H1 & H2 & H3 & H4 & H5 & H6) Hle. split; [lia|]. split; [exact H3|].
  intros i Hi. destruct (Z.eq_dec i f) as [->|N]; [exact H4|]. apply H5. lia.
Qed.

Lemma right_loop_ok b e : 0 <= b -> forall fuel l f t, Permutation l0 l -> e <= len l -> RI l b e f t -> t - f < Z.of_nat fuel ->
  exists l' f', partition_right_loop comp fuel (hole l b) (l@b) f t = Ok (hole l' b, f') /\
    perm_in (b + 1) e l l' /\ split_at l' b e f'.
Proof.
  intros Hb. induction fuel as [|fuel IH]; intros l f t HP He HRI Hfu; cbn [partition_right_loop].
  { assert (t < f) by lia. destruct (Z.ltb_spec f t); [lia|]. exists l, f. split; [reflexivity|].
    split; [apply perm_in_refl; destruct HRI; lia|]. eapply RI_stop; [exact HRI|lia]. }
  destruct (Z.ltb_spec f t) as [L|L].
  2:{ exists l, f. split; [reflexivity|]. split; [apply perm_in_refl; destruct HRI; lia|]. eapply RI_stop; [exact HRI|lia]. }
  destruct HRI as (H1 & H2 & H3 & H4 & H5 & H6). specialize (H6 L).
  rewrite (swap_hole d) by atlia. cbn [bind]. rewrite hole_length.
  set (l1 := swp d l f t). assert (HL : len l1 = len l) by apply len_swp.
  assert (P1 : perm_in (b + 1) e l l1) by (apply perm_in_swp; lia).
  assert (Q1 : Permutation l0 l1) by (eapply perm0; eassumption).
  assert (Eb : l1@b = l@b) by (unfold l1; swp_cases; reflexivity).
  assert (G3 : forall i, b < i <= f -> slt (l1@i) (l@b)) by (intros i Hi; unfold l1; swp_cases; auto; apply H3; lia).
  assert (G5 : forall i, t <= i < e -> le (l@b) (l1@i)) by (intros i Hi; unfold l1; swp_cases; auto; apply H5; lia).
  assert (TL : forall i, b < i < e -> comp (l1@i) (l@b) = lt (l1@i) (l@b)).
  { intros. rewrite <- Eb. apply test_lt; try assumption; unfold inr; lia. }
  assert (HLn : length l1 = length l) by (unfold len in HL; lia).
  destruct (scan_up_ok (fun x => comp x (l@b)) l1 b t) with (fuel := S (length l1)) (first := f) as (f' & -> & Hf & Tf & Ta);
    [unfold inr; lia|lia|cbn beta; rewrite TL by lia; apply G5; lia|lia|unfold len in *; lia|].
  cbn [bind]. cbn beta in *. rewrite TL in Tf by lia.
  destruct (scan_down_ok (fun x => negb (comp x (l@b))) l1 b f) with (fuel := S (length l1)) (last := t) as (t' & -> & Ht & Tt & Tc);
    [unfold inr; lia|lia|cbn beta; rewrite TL by lia; apply negb_false_iff; apply G3; lia|lia|unfold len in *; lia|].
  cbn [bind]. cbn beta in *. apply negb_false_iff in Tt. rewrite TL in Tt by lia.
  assert (Ta' : forall i, b < i < f' -> slt (l1@i) (l@b)).
  { intros i Hi. destruct (Z_le_gt_dec i f); [apply G3; lia|]. unfold slt. rewrite <- TL by lia. apply Ta; lia. }
  assert (Tc' : forall i, t' < i < e -> le (l@b) (l1@i)).
  { intros i Hi. destruct (Z_le_gt_dec t i); [apply G5; lia|]. unfold le. rewrite <- TL by lia. apply negb_true_iff. apply Tc; lia. }
  assert (f' - 1 <= t').
  { destruct (Z_le_gt_dec (f' - 1) t'); [assumption|]. exfalso.
    assert (slt (l1@(f' - 1)) (l@b)) by (apply Ta'; lia). assert (le (l@b) (l1@(f' - 1))) by (apply Tc'; lia).
    unfold slt, le in *. congruence. }
  rewrite <- Eb. destruct (IH l1 f' t') as (l' & f'' & HE & P' & S'); try assumption; try lia.
  { repeat split; rewrite ?Eb; try lia; auto. }
  exists l', f''. split; [exact HE|]. split; [eapply perm_in_trans; eassumption|exact S'].
Qed.

Lemma partition_right_ok l b e : Permutation l0 l -> 0 <= b -> e <= len l -> (exists k, b < k < e /\ le (l@b) (l@k)) ->
  exists l' pos fl, partition_right comp (full l) b e = Ok (full l', pos, fl) /\ perm_in b e l l' /\ right_post l' b e pos (l@b).
Proof.
  intros HP Hb He Hk. unfold partition_right.
  destruct (right_head_ok l b e HP Hb He Hk) as (f & t & -> & HRI). cbn [bind]. rewrite hole_length.
  destruct (right_loop_ok b e Hb (S (length l)) l f t HP He HRI) as (l1 & f' & -> & P1 & S1).
  { destruct HRI. unfold len in *. lia. }
  cbn [bind]. destruct (place_right l l1 b e f' Hb He P1 S1) as (l' & -> & P' & R'). cbn [bind]. eauto 10.
Qed.

(** ** Partition left *)

Definition left_post (l' : list T) (b e pos : Z) (p : T) : Prop :=
  b <= pos < e /\ l'@pos = p /\ (forall i, b <= i < pos -> le (l'@i) p) /\ (forall i, pos < i < e -> slt p (l'@i)).

Definition LI (l : list T) (b e f t : Z) : Prop :=
  b < t < e /\ b <= f <= t + 1 /\ (forall i, b < i < f -> le (l@i) (l@b)) /\ le (l@t) (l@b) /\
  (forall i, t < i < e -> slt (l@b) (l@i)) /\ (f < t -> b < f /\ slt (l@b) (l@f)).

Lemma left_loop_ok b e : 0 <= b -> forall fuel l f t, Permutation l0 l -> e <= len l -> LI l b e f t -> t - f < Z.of_nat fuel ->
  exists l' t', partition_left_loop comp fuel (hole l b) (l@b) f t = Ok (hole l' b, t') /\
    perm_in (b + 1) e l l' /\ b < t' < e /\
    (forall i, b < i <= t' -> le (l'@i) (l'@b)) /\ (forall i, t' < i < e -> slt (l'@b) (l'@i)).
Proof.
  intros Hb.
  assert (Stop : forall l f t, LI l b e f t -> t <= f -> b < t < e /\
    (forall i, b < i <= t -> le (l@i) (l@b)) /\ (forall i, t < i < e -> slt (l@b) (l@i))).
  { intros l f t (H1 & H2 & H3 & H4 & H5 & H6) Hle. split; [lia|]. split; [|exact H5].
    intros i Hi. destruct (Z.eq_dec i t) as [->|N]; [exact H4|]. apply H3; lia. }
  induction fuel as [|fuel IH]; intros l f t HP He HLI Hfu; cbn [partition_left_loop].
  { assert (t < f) by lia. destruct (Z.ltb_spec f t); [lia|]. exists l, t. split; [reflexivity|].
    split; [apply perm_in_refl; destruct HLI; lia|]. apply (Stop l f t HLI). lia. }
  destruct (Z.ltb_spec f t) as [L|L].
  2:{ exists l, t. split; [reflexivity|]. split; [apply perm_in_refl; destruct HLI; lia|]. apply (Stop l f t HLI). lia. }
  destruct HLI as (H1 & H2 & H3 & H4 & H5 & H6). specialize (H6 L). destruct H6 as [H6 H7].
  rewrite (swap_hole d) by atlia. cbn [bind]. rewrite hole_length.
  set (l1 := swp d l f t). assert (HL : len l1 = len l) by apply len_swp.
  assert (P1 : perm_in (b + 1) e l l1) by (apply perm_in_swp; lia).
  assert (Q1 : Permutation l0 l1) by (eapply perm0; eassumption).
  assert (Eb : l1@b = l@b) by (unfold l1; swp_cases; reflexivity).
  assert (G3 : forall i, b < i <= f -> le (l1@i) (l@b)) by (intros i Hi; unfold l1; swp_cases; auto; apply H3; lia).
  assert (G5 : forall i, t <= i < e -> slt (l@b) (l1@i)) by (intros i Hi; unfold l1; swp_cases; auto; apply H5; lia).
  assert (TL : forall i, b < i < e -> comp (l@b) (l1@i) = lt (l@b) (l1@i)).
  { intros. rewrite <- Eb. apply AG; try assumption; unfold inr; lia. }
  assert (HLn : length l1 = length l) by (unfold len in HL; lia).
  destruct (scan_down_ok (fun x => comp (l@b) x) l1 b f) with (fuel := S (length l1)) (last := t) as (t' & -> & Ht & Tt & Tc);
    [unfold inr; lia|lia|cbn beta; rewrite TL by lia; apply G3; lia|lia|unfold len in *; lia|].
  cbn [bind]. cbn beta in *. rewrite TL in Tt by lia.
  destruct (scan_up_ok (fun x => negb (comp (l@b) x)) l1 b t) with (fuel := S (length l1)) (first := f) as (f' & -> & Hf & Tf & Ta);
    [unfold inr; lia|lia|cbn beta; rewrite TL by lia; apply negb_false_iff; apply G5; lia|lia|unfold len in *; lia|].
  cbn [bind]. cbn beta in *. apply negb_false_iff in Tf. rewrite TL in Tf by lia.
  assert (Ta' : forall i, b < i < f' -> le (l1@i) (l@b)).
  { intros i Hi. destruct (Z_le_gt_dec i f); [apply G3; lia|]. unfold le. rewrite <- TL by lia. apply negb_true_iff. apply Ta; lia. }
  assert (Tc' : forall i, t' < i < e -> slt (l@b) (l1@i)).
  { intros i Hi. destruct (Z_le_gt_dec t i); [apply G5; lia|]. unfold slt. rewrite <- TL by lia. apply Tc; lia. }
  assert (f' <= t' + 1).
  { destruct (Z_le_gt_dec f' (t' + 1)); [assumption|]. exfalso.
    assert (le (l1@(t' + 1)) (l@b)) by (apply Ta'; lia). assert (slt (l@b) (l1@(t' + 1))) by (apply Tc'; lia).
    unfold slt, le in *. congruence. }
  rewrite <- Eb. destruct (IH l1 f' t') as (l' & t'' & HE & P' & S'); try assumption; try lia.
  { repeat split; rewrite ?Eb; try lia; auto. }
  exists l', t''. split; [exact HE|]. split; [eapply perm_in_trans; eassumption|exact S'].
Qed.

Lemma partition_left_ok l b e : Permutation l0 l -> 0 <= b -> e <= len l -> (exists k, b < k < e /\ le (l@k) (l@b)) ->
  exists l' pos, partition_left comp (full l) b e = Ok (full l', pos) /\ perm_in b e l l' /\ left_post l' b e pos (l@b).
Proof.
  intros HP Hb He (k & Hk & Hkl). unfold partition_left.
  rewrite (take_full d) by atlia. cbn [bind]. rewrite hole_length.
  assert (TL : forall i, b < i < e -> comp (l@b) (l@i) = lt (l@b) (l@i)) by (intros; apply AG; try assumption; atlia).
  destruct (scan_down_ok (fun x => comp (l@b) x) l b k) with (fuel := S (length l)) (last := e) as (t & -> & Ht & Tt & Tc);
    [atlia|lia|cbn beta; rewrite TL by lia; exact Hkl|lia|unfold len in *; lia|].
  cbn [bind]. cbn beta in *. rewrite TL in Tt by lia.
  assert (Tc' : forall i, t < i < e -> slt (l@b) (l@i)) by (intros i Hi; unfold slt; rewrite <- TL by lia; apply Tc; lia).
  assert (Hscan : exists f, (if t + 1 =? e
     then scan_up_guarded (S (length l)) (fun x => negb (comp (l@b) x)) (hole l b) b t
     else scan_up (S (length l)) (fun x => negb (comp (l@b) x)) (hole l b) b) = Ok f /\ LI l b e f t).
  { destruct (Z.eqb_spec (t + 1) e) as [Et|Nt].
    - destruct (scan_up_guarded_ok (fun x => negb (comp (l@b) x)) l b t) with (fuel := S (length l)) (first := b) as (f & -> & Hf & Ta & Tf);
        [atlia|lia|lia|unfold len in *; lia|].
      exists f. split; [reflexivity|]. cbn beta in *.
      assert (Ta' : forall i, b < i < f -> le (l@i) (l@b)).
      { intros i Hi. unfold le. rewrite <- TL by lia. apply negb_true_iff. apply Ta; lia. }
      repeat split; try lia; auto.
      destruct Tf as [[Tf1 Tf2]|[-> Tf2]]; [|lia]. apply negb_false_iff in Tf2. rewrite TL in Tf2 by lia. exact Tf2.
    - destruct (scan_up_ok (fun x => negb (comp (l@b) x)) l b (t + 1)) with (fuel := S (length l)) (first := b) as (f & -> & Hf & Tf & Ta);
        [atlia|lia|cbn beta; rewrite TL by lia; apply negb_false_iff; apply Tc'; lia|lia|unfold len in *; lia|].
      exists f. split; [reflexivity|]. cbn beta in *. apply negb_false_iff in Tf. rewrite TL in Tf by lia.
      repeat split; try lia; auto.
      intros i Hi. unfold le. rewrite <- TL by lia. apply negb_true_iff. apply Ta; lia. }
  destruct Hscan as (f & -> & HLI). cbn [bind].
  destruct (left_loop_ok b e Hb (S (length l)) l f t HP He HLI) as (l1 & t' & -> & P1 & Ht' & S1 & S2).
  { destruct HLI. unfold len in *. lia. }
  cbn [bind]. pose proof (perm_in_len _ _ _ _ P1) as L.
  assert (E : l1@b = l@b) by (apply (perm_in_at d _ _ _ _ b P1); lia).
  rewrite <- E. rewrite place_pivot_ok by (unfold inr; lia). cbn [bind].
  eexists _, _. split; [reflexivity|]. split.
  { eapply perm_in_trans; [eapply perm_in_widen; [exact P1|lia|lia]|]. apply perm_in_swp; lia. }
  split; [lia|]. split; [swp_cases; subst; congruence|]. split; intros i Hi; swp_cases.
  - apply S1; lia.
  - apply S1; lia.
  - apply S2; lia.
Qed.

(** ** Branchless partition *)

(** A second cell [h] moved out besides [b]. *)
Definition hole2 (l : list T) (b h : Z) : @arr T := upd (hole l b) (Z.to_nat h) None.

Lemma hole2_len l b h : zlen (hole2 l b h) = len l.
Proof. unfold zlen, hole2. rewrite upd_length. fold (zlen (hole l b)). apply hole_len. Qed.
Lemma take_hole l b h : inr l b -> inr l h -> h <> b -> take (hole l b) h = Ok (l@h, hole2 l b h).
Proof.
  intros Hb Hh N. unfold take. rewrite (get_hole d) by assumption. cbn [bind].
  rewrite set_cell_ok by (rewrite hole_len; exact Hh). reflexivity.
Qed.
Lemma put_hole2 l b h : inr l b -> inr l h -> h <> b -> put (hole2 l b h) h (l@h) = Ok (hole l b).
Proof.
  intros Hb Hh N. unfold put. rewrite set_cell_ok by (rewrite hole2_len; exact Hh). f_equal.
  unfold hole2, hole, inr in *. rewrite upd_upd. rewrite upd_comm by lia. f_equal. apply upd_same.
  rewrite nth_error_map, (nth_error_at d) by (unfold inr; lia). reflexivity.
Qed.
Lemma move_hole2 l b h j : inr l b -> inr l h -> inr l j -> h <> b -> j <> b -> j <> h ->
  move (hole2 l b h) h j = Ok (hole2 (swp d l h j) b j).
Proof.
  intros Hb Hh Hj N1 N2 N3. unfold move.
  assert (C : cell (hole2 l b h) j = Ok (Some (l@j))).
  { unfold cell, rdz, rd. unfold inr in *. destruct (Z.ltb_spec j 0); [lia|]. unfold hole2.
    rewrite nth_error_upd by (rewrite hole_length; unfold len in *; lia).
    destruct (Nat.eqb_spec (Z.to_nat j) (Z.to_nat h)); [lia|].
    pose proof (cell_hole d l b j Hj Hb) as C. unfold cell, rdz, rd in C. destruct (Z.ltb_spec j 0); [lia|].
    destruct (Z.eqb_spec j b); [lia|]. exact C. }
  rewrite C. cbn [bind]. rewrite set_cell_ok by (rewrite hole2_len; exact Hj). cbn [bind].
  rewrite set_cell_ok by (unfold zlen; rewrite upd_length; fold (zlen (hole2 l b h)); rewrite hole2_len; exact Hh).
  f_equal. unfold hole2, hole, swp. unfold inr in *. rewrite !map_upd.
  rewrite (upd_comm _ (Z.to_nat j) (Z.to_nat h)) by lia. rewrite upd_upd.
  rewrite (upd_comm _ (Z.to_nat b) (Z.to_nat h)) by lia.
  rewrite (upd_comm _ (Z.to_nat j) (Z.to_nat b)) by lia. rewrite upd_upd.
  reflexivity.
Qed.

(** The pairs of offsets to exchange: left positions below [m] hold values not smaller than
    [p], right positions from [m] on hold smaller ones. *)
Definition pairs_ok (l : list T) (f m t : Z) (p : T) (ps : list (Z * Z)) : Prop :=
  (forall x y, In (x, y) ps -> f <= f + x < m /\ m <= t - y < t /\ le p (l@(f + x)) /\ slt (l@(t - y)) p) /\
  NoDup (map fst ps) /\ NoDup (map snd ps).
Definition untouched (f t i : Z) (ps : list (Z * Z)) : Prop :=
  ~ In (i - f) (map fst ps) /\ ~ In (t - i) (map snd ps).
Definition pairs_done (l l' : list T) (f t : Z) (p : T) (ps : list (Z * Z)) : Prop :=
  forall x y, In (x, y) ps -> slt (l'@(f + x)) p /\ le p (l'@(t - y)).

Lemma pairs_ok_tl l l1 f m t p x y ps : f <= m -> m <= t ->
  pairs_ok l f m t p ((x, y) :: ps) ->
  (forall i, 0 <= i -> i <> f + x -> i <> t - y -> l1@i = l@i) -> 0 <= f -> pairs_ok l1 f m t p ps.
Proof.
  intros Hm Ht (H & N1 & N2) E Hf. cbn [map fst snd] in *. inversion_clear N1. inversion_clear N2.
  split; [|split; assumption]. intros x' y' Hi. destruct (H x' y' (or_intror Hi)) as (G1 & G2 & G3 & G4).
  destruct (H x y (or_introl eq_refl)) as (F1 & F2 & _ & _).
  assert (x' <> x) by (intros ->; apply H0; apply (in_map fst _ _ Hi)).
  assert (y' <> y) by (intros ->; apply H2; apply (in_map snd _ _ Hi)).
  rewrite !E by lia. repeat split; try lia; assumption.
Qed.

Lemma swap_pairs_ok b f m t p : 0 <= b < f -> f <= m <= t -> forall ps l, t <= len l -> pairs_ok l f m t p ps ->
  exists l', swap_pairs (hole l b) f t ps = Ok (hole l' b) /\ perm_in f t l l' /\
    (forall i, f <= i < t -> untouched f t i ps -> l'@i = l@i) /\ pairs_done l l' f t p ps.
Proof.
  intros Hb Hm. induction ps as [|[x y] ps IH]; intros l Ht HP; cbn [swap_pairs].
  - exists l. split; [reflexivity|]. split; [apply perm_in_refl; lia|]. split; [reflexivity|]. intros x y [].
  - destruct (proj1 HP x y (or_introl eq_refl)) as (G1 & G2 & G3 & G4).
    rewrite (swap_hole d) by atlia. cbn [bind].
    set (l1 := swp d l (f + x) (t - y)). assert (HL : len l1 = len l) by apply len_swp.
    assert (P1 : perm_in f t l l1) by (apply perm_in_swp; lia).
    assert (E : forall i, 0 <= i -> i <> f + x -> i <> t - y -> l1@i = l@i).
    { intros i Hi N1 N2. unfold l1. swp_cases. reflexivity. }
    assert (HP1 : pairs_ok l1 f m t p ps) by (eapply pairs_ok_tl; [..|exact HP|exact E|]; lia).
    destruct (IH l1 ltac:(lia) HP1) as (l' & HE & P' & U' & D').
    exists l'. split; [exact HE|]. split; [eapply perm_in_trans; eassumption|].
    destruct HP as (_ & N1 & N2). cbn [map fst snd] in N1, N2. inversion_clear N1. inversion_clear N2.
    assert (NL : forall y', In y' (map snd ps) -> t - y' <> f + x).
    { intros y' Hy'. apply in_map_iff in Hy'. destruct Hy' as ([x1 y1] & <- & Hy'). cbn.
      destruct (proj1 HP1 _ _ Hy') as (? & ? & _). lia. }
    assert (NR : forall x', In x' (map fst ps) -> f + x' <> t - y).
    { intros x' Hx'. apply in_map_iff in Hx'. destruct Hx' as ([x1 y1] & <- & Hx'). cbn.
      destruct (proj1 HP1 _ _ Hx') as (? & ? & _). lia. }
    assert (UL : untouched f t (f + x) ps).
    { split; [replace (f + x - f) with x by lia; assumption|]. intros Hi. apply (NL _ Hi). lia. }
    assert (UR : untouched f t (t - y) ps).
    { split; [|replace (t - (t - y)) with y by lia; assumption]. intros Hi. apply (NR _ Hi). lia. }
    split.
    + intros i Hi (U1 & U2). cbn [map fst snd In] in U1, U2. rewrite U'; [|lia|split; tauto].
      apply E; [lia| |]; intros ->; [apply U1|apply U2]; left; lia.
    + intros x' y' [Hxy|Hxy].
      * injection Hxy as <- <-. rewrite !U' by (assumption || lia). unfold l1. split; swp_cases; assumption.
      * apply D'. exact Hxy.
Qed.

Lemma cycle_pairs_ok b f m t p : 0 <= b < f -> f <= m <= t -> forall ps l r, t <= len l -> pairs_ok l f m t p ps ->
  m <= r < t -> le p (l@r) -> ~ In (t - r) (map snd ps) ->
  exists l' r', cycle_pairs (hole2 l b r) f t r ps = Ok (hole2 l' b r', r') /\ perm_in f t l l' /\ m <= r' < t /\
    l'@r' = l@r /\ le p (l'@r) /\
    (forall i, f <= i < t -> i <> r -> untouched f t i ps -> l'@i = l@i) /\ pairs_done l l' f t p ps.
Proof.
  intros Hb Hm. induction ps as [|[x y] ps IH]; intros l r Ht HP Hr Hpr Hnr; cbn [cycle_pairs].
  - exists l, r. split; [reflexivity|]. split; [apply perm_in_refl; lia|]. split; [lia|]. split; [reflexivity|]. split; [exact Hpr|].
    split; [reflexivity|]. intros x y [].
  - destruct (proj1 HP x y (or_introl eq_refl)) as (G1 & G2 & G3 & G4).
    assert (Nr : r <> t - y). { intros ->. apply Hnr. left. cbn. lia. }
    rewrite move_hole2 by atlia. cbn [bind]. rewrite move_hole2 by atlia. cbn [bind].
    set (l1 := swp d l r (f + x)). set (l2 := swp d l1 (f + x) (t - y)).
    assert (HL1 : len l1 = len l) by apply len_swp. assert (HL2 : len l2 = len l) by (unfold l2; rewrite len_swp; exact HL1).
    assert (P1 : perm_in f t l l2).
    { eapply perm_in_trans; [apply perm_in_swp with (i := r) (j := f + x); lia|]. apply perm_in_swp; fold l1; lia. }
    assert (A2 : forall i, 0 <= i -> l2@i = if i =? f + x then l@(t - y) else if i =? t - y then l@r else if i =? r then l@(f + x) else l@i).
    { intros i Hi. unfold l2. rewrite at_swp by (unfold inr; rewrite ?HL1; lia). unfold l1. swp_cases; reflexivity. }
    assert (HP1 : pairs_ok l2 f m t p ps).
    { destruct HP as (H & N1 & N2). cbn [map fst snd] in *. inversion_clear N1. inversion_clear N2.
      split; [|split; assumption]. intros x' y' Hi. destruct (H x' y' (or_intror Hi)) as (F1 & F2 & F3 & F4).
      assert (x' <> x) by (intros ->; apply H0; apply (in_map fst _ _ Hi)).
      assert (y' <> y) by (intros ->; apply H2; apply (in_map snd _ _ Hi)).
      assert (t - y' <> r). { intros <-. apply Hnr. right. replace (t - (t - y')) with y' by lia. apply (in_map snd _ _ Hi). }
      rewrite !A2 by lia.
      repeat match goal with |- context [?a =? ?c] => destruct (Z.eqb_spec a c); try lia end.
      repeat split; try lia; assumption. }
    destruct HP as (H & N1 & N2). cbn [map fst snd] in N1, N2. inversion_clear N1. inversion_clear N2.
    assert (NL : forall y', In y' (map snd ps) -> t - y' <> f + x).
    { intros y' Hy'. apply in_map_iff in Hy'. destruct Hy' as ([x1 y1] & <- & Hy'). cbn.
      destruct (proj1 HP1 _ _ Hy') as (? & ? & _). lia. }
    assert (NR : forall x' r', m <= r' -> In x' (map fst ps) -> f + x' <> r').
    { intros x' r' Hr' Hx'. apply in_map_iff in Hx'. destruct Hx' as ([x1 y1] & <- & Hx'). cbn.
      destruct (proj1 HP1 _ _ Hx') as (? & ? & _). lia. }
    destruct (IH l2 (t - y)) as (l' & r' & HE & P' & Hr' & E1 & E2 & U' & D'); try assumption; try lia.
    { rewrite A2 by lia. repeat match goal with |- context [?a =? ?c] => destruct (Z.eqb_spec a c); try lia end. exact Hpr. }
    { replace (t - (t - y)) with y by lia. assumption. }
    exists l', r'. split; [exact HE|]. split; [eapply perm_in_trans; eassumption|]. split; [lia|]. split.
    { rewrite E1, A2 by lia. repeat match goal with |- context [?a =? ?c] => destruct (Z.eqb_spec a c); try lia end. reflexivity. }
    split.
    { rewrite U'; [|lia|lia|].
      - rewrite A2 by lia. repeat match goal with |- context [?a =? ?c] => destruct (Z.eqb_spec a c); try lia end. exact G3.
      - split; [intros Hi; apply (NR _ r ltac:(lia) Hi); lia|]. intros Hi. apply Hnr. right. exact Hi. }
    split.
    + intros i Hi Nir (U1 & U2). cbn [map fst snd In] in U1, U2.
      assert (i <> f + x) by (intros ->; apply U1; left; lia).
      assert (i <> t - y) by (intros ->; apply U2; left; lia).
      rewrite U'; [|lia|lia|split; tauto].
      rewrite A2 by lia. repeat match goal with |- context [?a =? ?c] => destruct (Z.eqb_spec a c); try lia end. reflexivity.
    + intros x' y' [Hxy|Hxy]; [|apply D'; exact Hxy].
      injection Hxy as <- <-. split; [|exact E2].
      rewrite U'; [|lia|lia|].
      * rewrite A2 by lia. rewrite Z.eqb_refl. exact G4.
      * split; [replace (f + x - f) with x by lia; assumption|]. intros Hi. apply (NL _ Hi). lia.
Qed.

Lemma swap_offsets_ok b f m t p ps l us : 0 <= b < f -> f <= m <= t -> t <= len l -> pairs_ok l f m t p ps ->
  exists l', swap_offsets (hole l b) f t ps us = Ok (hole l' b) /\ perm_in f t l l' /\
    (forall i, f <= i < t -> untouched f t i ps -> l'@i = l@i) /\ pairs_done l l' f t p ps.
Proof.
  intros Hb Hm Ht HP. unfold swap_offsets. destruct us; [apply (swap_pairs_ok b f m t p); assumption|].
  destruct ps as [|[x y] ps].
  { exists l. split; [reflexivity|]. split; [apply perm_in_refl; lia|]. split; [reflexivity|]. intros x y []. }
  destruct (proj1 HP x y (or_introl eq_refl)) as (G1 & G2 & G3 & G4).
  rewrite take_hole by atlia. cbn [bind]. rewrite move_hole2 by atlia. cbn [bind].
  set (l1 := swp d l (f + x) (t - y)). assert (HL : len l1 = len l) by apply len_swp.
  assert (P1 : perm_in f t l l1) by (apply perm_in_swp; lia).
  assert (E : forall i, 0 <= i -> i <> f + x -> i <> t - y -> l1@i = l@i).
  { intros i Hi N1 N2. unfold l1. swp_cases. reflexivity. }
  assert (EL : l1@(f + x) = l@(t - y)) by (unfold l1; swp_cases; reflexivity).
  assert (ER : l1@(t - y) = l@(f + x)) by (unfold l1; swp_cases; reflexivity).
  assert (HP1 : pairs_ok l1 f m t p ps) by (eapply pairs_ok_tl; [..|exact HP|exact E|]; lia).
  destruct HP as (H & N1 & N2). cbn [map fst snd] in N1, N2. inversion_clear N1. inversion_clear N2.
  destruct (cycle_pairs_ok b f m t p Hb Hm ps l1 (t - y)) as (l' & r' & -> & P' & Hr' & E1 & E2 & U' & D'); try assumption; try lia.
  { rewrite ER. exact G3. }
  { replace (t - (t - y)) with y by lia. assumption. }
  cbn [bind fst snd]. pose proof (perm_in_len _ _ _ _ P') as HL'.
  replace (l@(f + x)) with (l'@r') by congruence.
  rewrite put_hole2 by (unfold inr; lia). exists l'. split; [reflexivity|]. split; [eapply perm_in_trans; eassumption|].
  split.
  - intros i Hi (U1 & U2). cbn [map fst snd In] in U1, U2.
    assert (i <> f + x) by (intros ->; apply U1; left; lia).
    assert (i <> t - y) by (intros ->; apply U2; left; lia).
    rewrite U'; [|lia|lia|split; tauto]. apply E; lia.
  - intros x' y' [Hxy|Hxy]; [|apply D'; exact Hxy].
    injection Hxy as <- <-. split; [|exact E2].
    rewrite U'; [|lia|lia|].
    + rewrite EL. exact G4.
    + split; [replace (f + x - f) with x by lia; assumption|]. intros Hi.
      apply in_map_iff in Hi. destruct Hi as ([x1 y1] & Ey & Hi). cbn in Ey.
      destruct (proj1 HP1 _ _ Hi) as (? & ? & _). lia.
Qed.

(** The offset buffers: exactly the misplaced positions of a block, in increasing order. *)
Definition OffL (l : list T) (f n : Z) (p : T) (bl : list Z) : Prop :=
  (forall o, In o bl <-> 0 <= o < n /\ le p (l@(f + o))) /\ StronglySorted Z.lt bl.
Definition OffR (l : list T) (t n : Z) (p : T) (br : list Z) : Prop :=
  (forall o, In o br <-> 1 <= o <= n /\ slt (l@(t - o)) p) /\ StronglySorted Z.lt br.

Lemma sorted_snoc bl i : StronglySorted Z.lt bl -> (forall o, In o bl -> o < i) -> StronglySorted Z.lt (bl ++ [i]).
Proof.
  induction 1 as [|x bl S IH F]; intros H; cbn; [constructor; constructor|].
  constructor; [apply IH; intros; apply H; right; assumption|].
  apply Forall_app. split; [exact F|]. constructor; [apply H; left; reflexivity|constructor].
Qed.
Lemma sorted_nodup bl : StronglySorted Z.lt bl -> NoDup bl.
Proof.
  induction 1 as [|x bl S IH F]; constructor; [|exact IH]. intros Hi. rewrite Forall_forall in F. specialize (F x Hi). lia.
Qed.

Lemma fill_l_ok b f p : forall n l i buf, 0 <= b < f -> 0 <= i -> i + Z.of_nat n <= 64 -> f + i + Z.of_nat n <= len l ->
  Z.of_nat (length buf) <= i -> OffL l f i p buf ->
  (forall j, f <= j < len l -> comp (l@j) p = lt (l@j) p) ->
  exists buf', fill_l comp n (hole l b) p f i buf = Ok buf' /\ OffL l f (i + Z.of_nat n) p buf'.
Proof.
  induction n as [|n IH]; intros l i buf Hb Hi H64 Hl Hlen (HI & HSS) HC; cbn [fill_l].
  - exists buf. split; [reflexivity|]. replace (i + Z.of_nat 0) with i by lia. split; assumption.
  - change block_size with 64. destruct (Z.ltb_spec (Z.of_nat (length buf)) 64); [|lia].
    rewrite (get_hole d) by atlia. cbn [bind]. rewrite HC by lia.
    replace (i + Z.of_nat (S n)) with (i + 1 + Z.of_nat n) by lia.
    destruct (lt l@(f + i) p) eqn:E.
    + apply IH; try assumption; try lia. split; [|assumption].
      intros o. rewrite HI. split; intros [H1 H2]; (split; [|assumption]); try lia.
      destruct (Z.eq_dec o i) as [->|]; [|lia]. unfold le in H2. congruence.
    + apply IH; try assumption; try lia; [rewrite app_length; cbn; lia|]. split.
      * intros o. rewrite in_app_iff, HI. cbn [In]. split.
        -- intros [[H1 H2]|[<-|[]]]; (split; [lia|assumption]).
        -- intros [H1 H2]. destruct (Z.eq_dec o i) as [->|]; [right; left; reflexivity|left]. split; [lia|assumption].
      * apply sorted_snoc; [assumption|]. intros o Ho. apply HI in Ho. lia.
Qed.
Lemma fill_r_ok b t p : forall n l i buf, 0 <= b -> 0 <= i -> i + Z.of_nat n <= 64 -> b < t - i - Z.of_nat n -> t <= len l ->
  Z.of_nat (length buf) <= i -> OffR l t i p buf ->
  (forall j, b < j < len l -> comp (l@j) p = lt (l@j) p) ->
  exists buf', fill_r comp n (hole l b) p t i buf = Ok buf' /\ OffR l t (i + Z.of_nat n) p buf'.
Proof.
  induction n as [|n IH]; intros l i buf Hb Hi H64 Hl Ht Hlen (HI & HSS) HC; cbn [fill_r].
  - exists buf. split; [reflexivity|]. replace (i + Z.of_nat 0) with i by lia. split; assumption.
  - change block_size with 64. destruct (Z.ltb_spec (Z.of_nat (length buf)) 64); [|lia].
    rewrite (get_hole d) by atlia. cbn [bind]. rewrite HC by lia.
    replace (i + Z.of_nat (S n)) with (i + 1 + Z.of_nat n) by lia.
    destruct (lt l@(t - (i + 1)) p) eqn:E.
    + apply IH; try assumption; try lia; [rewrite app_length; cbn; lia|]. split.
      * intros o. rewrite in_app_iff, HI. cbn [In]. split.
        -- intros [[H1 H2]|[<-|[]]]; (split; [lia|assumption]).
        -- intros [H1 H2]. destruct (Z.eq_dec o (i + 1)) as [->|]; [right; left; reflexivity|left]. split; [lia|assumption].
      * apply sorted_snoc; [assumption|]. intros o Ho. apply HI in Ho. lia.
    + apply IH; try assumption; try lia. split; [|assumption].
      intros o. rewrite HI. split; intros [H1 H2]; (split; [|assumption]); try lia.
      destruct (Z.eq_dec o (i + 1)) as [->|]; [|lia]. unfold slt in H2. congruence.
Qed.

Lemma map_fst_combine {A B} (xs : list A) (ys : list B) : length xs = length ys -> map fst (combine xs ys) = xs.
Proof. revert ys. induction xs as [|x xs IH]; intros [|y ys] H; cbn in *; try lia; try reflexivity. rewrite IH by lia. reflexivity. Qed.
Lemma map_snd_combine {A B} (xs : list A) (ys : list B) : length xs = length ys -> map snd (combine xs ys) = ys.
Proof. revert ys. induction xs as [|x xs IH]; intros [|y ys] H; cbn in *; try lia; try reflexivity. rewrite IH by lia. reflexivity. Qed.

Lemma sorted_split bl n : StronglySorted Z.lt bl ->
  StronglySorted Z.lt (firstn n bl) /\ StronglySorted Z.lt (skipn n bl) /\
  (forall o, In o bl <-> In o (firstn n bl) \/ In o (skipn n bl)) /\
  (forall o, In o (firstn n bl) -> ~ In o (skipn n bl)).
Proof.
  intros S. pose proof (sorted_nodup _ S) as N.
  assert (A : forall n bl, StronglySorted Z.lt bl -> StronglySorted Z.lt (firstn n bl) /\ StronglySorted Z.lt (skipn n bl)).
  { clear. induction n as [|n IH]; intros bl S; [split; [constructor|exact S]|].
    destruct bl as [|x bl]; [split; constructor|]. cbn. inversion_clear S. destruct (IH bl H) as [S1 S2].
    split; [|exact S2]. constructor; [exact S1|]. rewrite Forall_forall in *. intros o Ho. apply H0.
    rewrite <- (firstn_skipn n bl). apply in_or_app. left. exact Ho. }
  destruct (A n bl S) as [S1 S2]. split; [exact S1|]. split; [exact S2|]. split.
  - intros o. rewrite <- in_app_iff, firstn_skipn. reflexivity.
  - rewrite <- (firstn_skipn n bl) in N. clear - N. induction (firstn n bl) as [|x xs IH]; intros o [].
    + subst. cbn in N. inversion_clear N. intros Hi. apply H. apply in_or_app. right. exact Hi.
    + cbn in N. inversion_clear N. apply IH; assumption.
Qed.

(** One round of exchanges between the two blocks. *)
Lemma swap_block_ok b l f t p bl br ls rs : 0 <= b < f -> 0 <= ls -> 0 <= rs -> f + ls <= t - rs -> t <= len l ->
  OffL l f ls p bl -> OffR l t rs p br ->
  exists l' bl' br', swap_block (hole l b) f t bl br ls rs =
      Ok (hole l' b, (if is_nil bl' then f + ls else f), (if is_nil br' then t - rs else t), bl', br') /\
    perm_in f t l l' /\ OffL l' f ls p bl' /\ OffR l' t rs p br' /\ (bl' = [] \/ br' = []).
Proof.
  intros Hb Hls Hrs Hm Ht (HL & SL) (HR & SR). unfold swap_block.
  set (num := Nat.min (length bl) (length br)).
  destruct (sorted_split bl num SL) as (SL1 & SL2 & IL & DL). destruct (sorted_split br num SR) as (SR1 & SR2 & IR & DR).
  set (ps := combine (firstn num bl) (firstn num br)).
  assert (Len : length (firstn num bl) = length (firstn num br)) by (rewrite !firstn_length; unfold num; lia).
  assert (F1 : map fst ps = firstn num bl) by (apply map_fst_combine; exact Len).
  assert (F2 : map snd ps = firstn num br) by (apply map_snd_combine; exact Len).
  assert (PO : pairs_ok l f (f + ls) t p ps).
  { split; [|rewrite F1, F2; split; apply sorted_nodup; assumption].
    intros x y Hi.
    assert (Hx : In x bl) by (apply IL; left; apply (in_combine_l _ _ _ _ Hi)). assert (Hy : In y br) by (apply IR; left; apply (in_combine_r _ _ _ _ Hi)).
    apply HL in Hx. apply HR in Hy. repeat split; try lia; tauto. }
  destruct (swap_offsets_ok b f (f + ls) t p ps l (Nat.eqb (length bl) (length br)) Hb ltac:(lia) Ht PO) as (l' & -> & P' & U' & D').
  cbn [bind]. exists l', (skipn num bl), (skipn num br). split; [reflexivity|]. split; [exact P'|].
  unfold untouched in U'. rewrite F1, F2 in U'.
  assert (C1 : forall o, In o (firstn num bl) -> slt (l'@(f + o)) p).
  { intros o Ho. rewrite <- F1 in Ho. apply in_map_iff in Ho. destruct Ho as ([x y] & <- & Ho). apply (D' x y Ho). }
  assert (C2 : forall o, In o (firstn num br) -> le p (l'@(t - o))).
  { intros o Ho. rewrite <- F2 in Ho. apply in_map_iff in Ho. destruct Ho as ([x y] & <- & Ho). apply (D' x y Ho). }
  assert (BL : forall o, In o (firstn num bl) -> 0 <= o < ls) by (intros o Ho; apply HL; apply IL; left; exact Ho).
  assert (BR : forall o, In o (firstn num br) -> 1 <= o <= rs) by (intros o Ho; apply HR; apply IR; left; exact Ho).
  split; [|split].
  - split; [|exact SL2]. intros o. split.
    + intros Ho. assert (Hb1 : In o bl) by (apply IL; right; exact Ho). apply HL in Hb1. destruct Hb1 as [Hb1 Hb2]. split; [lia|].
      rewrite U'; [exact Hb2|lia|]. replace (f + o - f) with o by lia. split.
      * intros Hc. apply (DL o Hc Ho).
      * intros Hc. apply BR in Hc. lia.
    + intros [Ho1 Ho2]. destruct (in_dec Z.eq_dec o (firstn num bl)) as [Hi|Hi].
      { apply C1 in Hi. unfold slt, le in *. congruence. }
      rewrite U' in Ho2; [|lia|replace (f + o - f) with o by lia; split; [exact Hi|intros Hc; apply BR in Hc; lia]].
      assert (Hb1 : In o bl) by (apply HL; split; assumption). apply IL in Hb1. tauto.
  - split; [|exact SR2]. intros o. split.
    + intros Ho. assert (Hb1 : In o br) by (apply IR; right; exact Ho). apply HR in Hb1. destruct Hb1 as [Hb1 Hb2]. split; [lia|].
      rewrite U'; [exact Hb2|lia|]. replace (t - (t - o)) with o by lia. split.
      * intros Hc. apply BL in Hc. lia.
      * intros Hc. apply (DR o Hc Ho).
    + intros [Ho1 Ho2]. destruct (in_dec Z.eq_dec o (firstn num br)) as [Hi|Hi].
      { apply C2 in Hi. unfold slt, le in *. congruence. }
      rewrite U' in Ho2; [|lia|replace (t - (t - o)) with o by lia; split; [intros Hc; apply BL in Hc; lia|exact Hi]].
      assert (Hb1 : In o br) by (apply HR; split; assumption). apply IR in Hb1. tauto.
  - assert (length (skipn num bl) = 0%nat \/ length (skipn num br) = 0%nat) as [H|H] by (rewrite !skipn_length; unfold num; lia);
      [left|right]; apply length_zero_iff_nil; exact H.
Qed.

Definition dec_sorted (l : list Z) : Prop := StronglySorted (fun x y => y < x) l.
Lemma sorted_rev bl : StronglySorted Z.lt bl -> dec_sorted (rev bl).
Proof.
  unfold dec_sorted. induction 1 as [|x bl S IH F]; cbn [rev]; [constructor|].
  assert (H : forall o, In o (rev bl) -> x < o).
  { intros o Ho. apply in_rev in Ho. rewrite Forall_forall in F. apply F. exact Ho. }
  clear F S. induction (rev bl) as [|y ys IH']; cbn; [constructor; constructor|].
  inversion_clear IH. constructor; [apply IH'; [assumption|intros; apply H; right; assumption]|].
  apply Forall_app. split; [assumption|]. constructor; [apply H; left; reflexivity|constructor].
Qed.

Lemma rest_l_ok b f p : 0 <= b < f -> forall offs l t, f <= t <= len l -> dec_sorted offs ->
  (forall o, In o offs <-> 0 <= o < t - f /\ le p (l@(f + o))) ->
  exists l' t', rest_l (hole l b) f t offs = Ok (hole l' b, t') /\ perm_in f t l l' /\ f <= t' <= t /\
    (forall i, f <= i < t' -> slt (l'@i) p) /\ (forall i, t' <= i < t -> le p (l'@i)).
Proof.
  intros Hb. induction offs as [|o offs IH]; intros l t Ht HS0 HI; cbn [rest_l].
  - exists l, t. split; [reflexivity|]. split; [apply perm_in_refl; lia|]. split; [lia|]. split; [|intros; lia].
    intros i Hi. destruct (le_or p (l@i)) as [H|H]; [|exact H]. exfalso. apply (HI (i - f)). split; [lia|].
    replace (f + (i - f)) with i by lia. exact H.
  - assert (Ho : 0 <= o < t - f /\ le p (l@(f + o))) by (apply HI; left; reflexivity). destruct Ho as [Ho1 Ho2].
    inversion_clear HS0. rewrite Forall_forall in H0.
    rewrite (swap_hole d) by atlia. cbn [bind]. set (l1 := swp d l (f + o) (t - 1)).
    assert (HL : len l1 = len l) by apply len_swp.
    assert (Hbig : forall i, f + o < i < t -> slt (l@i) p).
    { intros i Hi. destruct (le_or p (l@i)) as [H1|H1]; [|exact H1]. exfalso.
      assert (Hin : In (i - f) (o :: offs)) by (apply HI; split; [lia|replace (f + (i - f)) with i by lia; exact H1]).
      destruct Hin as [Hin|Hin]; [lia|]. apply H0 in Hin. lia. }
    assert (Hlast : le p (l1@(t - 1))) by (unfold l1; swp_cases; [replace (t - 1) with (f + o) by lia|]; exact Ho2).
    destruct (IH l1 (t - 1)) as (l' & t' & HE & P' & Ht' & A1 & A2); try assumption; try lia.
    { intros o'. split.
      - intros Hin. assert (o' < o) by (apply H0; exact Hin).
        assert (G : 0 <= o' < t - f /\ le p (l@(f + o'))) by (apply HI; right; exact Hin).
        split; [lia|]. unfold l1. swp_cases. apply G.
      - intros [G1 G2].
        destruct (Z_lt_ge_dec o' o) as [L|L].
        + assert (G : In o' (o :: offs)).
          { apply HI. split; [lia|]. unfold l1 in G2. revert G2. swp_cases. auto. }
          destruct G as [->|G]; [lia|exact G].
        + exfalso. destruct (Z.eq_dec o' o) as [->|N].
          * assert (E : l1@(f + o) = l@(t - 1)) by (unfold l1; swp_cases; reflexivity).
            rewrite E in G2. specialize (Hbig (t - 1) ltac:(lia)). unfold le, slt in *. congruence.
          * assert (E : l1@(f + o') = l@(f + o')) by (unfold l1; swp_cases; reflexivity).
            rewrite E in G2. specialize (Hbig (f + o') ltac:(lia)). unfold le, slt in *. congruence. }
    exists l', t'. split; [exact HE|]. split.
    { eapply perm_in_trans; [apply perm_in_swp with (i := f + o) (j := t - 1); lia|]. fold l1.
      eapply perm_in_widen; [exact P'|lia|rewrite len_swp; lia]. }
    split; [lia|]. split; [exact A1|]. intros i Hi. destruct (Z.eq_dec i (t - 1)) as [->|N]; [|apply A2; lia].
    rewrite (perm_in_at d _ _ _ _ (t - 1) P') by lia. exact Hlast.
Qed.

Lemma rest_r_ok b t p : 0 <= b -> forall offs l f, b < f <= t -> t <= len l -> dec_sorted offs ->
  (forall o, In o offs <-> 1 <= o <= t - f /\ slt (l@(t - o)) p) ->
  exists l' f', rest_r (hole l b) f t offs = Ok (hole l' b, f') /\ perm_in f t l l' /\ f <= f' <= t /\
    (forall i, f <= i < f' -> slt (l'@i) p) /\ (forall i, f' <= i < t -> le p (l'@i)).
Proof.
  intros Hb. induction offs as [|o offs IH]; intros l f Hf Ht HS0 HI; cbn [rest_r].
  - exists l, f. split; [reflexivity|]. split; [apply perm_in_refl; lia|]. split; [lia|]. split; [intros; lia|].
    intros i Hi. destruct (le_or p (l@i)) as [H|H]; [exact H|]. exfalso. apply (HI (t - i)). split; [lia|].
    replace (t - (t - i)) with i by lia. exact H.
  - assert (Ho : 1 <= o <= t - f /\ slt (l@(t - o)) p) by (apply HI; left; reflexivity). destruct Ho as [Ho1 Ho2].
    inversion_clear HS0. rewrite Forall_forall in H0.
    rewrite (swap_hole d) by atlia. cbn [bind]. set (l1 := swp d l (t - o) f).
    assert (HL : len l1 = len l) by apply len_swp.
    assert (Hbig : forall i, f <= i < t - o -> le p (l@i)).
    { intros i Hi. destruct (le_or p (l@i)) as [H1|H1]; [exact H1|]. exfalso.
      assert (Hin : In (t - i) (o :: offs)) by (apply HI; split; [lia|replace (t - (t - i)) with i by lia; exact H1]).
      destruct Hin as [Hin|Hin]; [lia|]. apply H0 in Hin. lia. }
    assert (Hfirst : slt (l1@f) p) by (unfold l1; swp_cases; [replace f with (t - o) by lia|]; exact Ho2).
    destruct (IH l1 (f + 1)) as (l' & f' & HE & P' & Hf' & A1 & A2); try assumption; try lia.
    { intros o'. split.
      - intros Hin. assert (o' < o) by (apply H0; exact Hin).
        assert (G : 1 <= o' <= t - f /\ slt (l@(t - o')) p) by (apply HI; right; exact Hin).
        split; [lia|]. unfold l1. swp_cases. apply G.
      - intros [G1 G2].
        destruct (Z_lt_ge_dec o' o) as [L|L].
        + assert (G : In o' (o :: offs)).
          { apply HI. split; [lia|]. unfold l1 in G2. revert G2. swp_cases. auto. }
          destruct G as [->|G]; [lia|exact G].
        + exfalso. destruct (Z.eq_dec o' o) as [->|N].
          * assert (E : l1@(t - o) = l@f) by (unfold l1; swp_cases; reflexivity).
            rewrite E in G2. specialize (Hbig f ltac:(lia)). unfold le, slt in *. congruence.
          * assert (E : l1@(t - o') = l@(t - o')) by (unfold l1; swp_cases; reflexivity).
            rewrite E in G2. specialize (Hbig (t - o') ltac:(lia)). unfold le, slt in *. congruence. }
    exists l', f'. split; [exact HE|]. split.
    { eapply perm_in_trans; [apply perm_in_swp with (i := t - o) (j := f); lia|]. fold l1.
      eapply perm_in_widen; [exact P'|lia|rewrite len_swp; lia]. }
    split; [lia|]. split; [|exact A2]. intros i Hi. destruct (Z.eq_dec i f) as [->|N]; [|apply A1; lia].
    rewrite (perm_in_at d _ _ _ _ f P') by lia. exact Hfirst.
Qed.

(** The state of the block loop. *)
Definition BI (l : list T) (b e f t : Z) (bl br : list Z) : Prop :=
  b < f <= t /\ t <= e /\ (forall i, b < i < f -> slt (l@i) (l@b)) /\ (forall i, t <= i < e -> le (l@b) (l@i)) /\
  (bl = [] \/ br = []) /\
  (bl <> [] -> 64 < t - f /\ OffL l f 64 (l@b) bl) /\ (br <> [] -> 64 < t - f /\ OffR l t 64 (l@b) br).

Lemma OffL_0 l f p : OffL l f 0 p [].
Proof. split; [intros o; split; [intros []|lia]|constructor]. Qed.
Lemma OffR_0 l t p : OffR l t 0 p [].
Proof. split; [intros o; split; [intros []|lia]|constructor]. Qed.
Lemma OffL_nil l f n p : OffL l f n p [] -> forall i, f <= i < f + n -> slt (l@i) p.
Proof.
  intros (H & _) i Hi. destruct (le_or p (l@i)) as [G|G]; [|exact G]. exfalso. apply (H (i - f)).
  split; [lia|]. replace (f + (i - f)) with i by lia. exact G.
Qed.
Lemma OffR_nil l t n p : OffR l t n p [] -> forall i, t - n <= i < t -> le p (l@i).
Proof.
  intros (H & _) i Hi. destruct (le_or p (l@i)) as [G|G]; [exact G|]. exfalso. apply (H (t - i)).
  split; [lia|]. replace (t - (t - i)) with i by lia. exact G.
Qed.
Lemma is_nil_spec {A} (l : list A) : (is_nil l = true /\ l = []) \/ (is_nil l = false /\ l <> []).
Proof. destruct l; [left; auto|right; split; [reflexivity|discriminate]]. Qed.

Lemma comp_pivot l b : Permutation l0 l -> inr l b -> forall j, b < j < len l -> comp (l@j) (l@b) = lt (l@j) (l@b).
Proof. intros HP Hb j Hj. apply AG; try assumption; unfold inr in *; lia. Qed.

Lemma block_loop_ok b e : 0 <= b -> forall fuel l f t bl br, Permutation l0 l -> e <= len l -> BI l b e f t bl br ->
  t - f < Z.of_nat fuel ->
  exists l' f' t' bl' br', block_loop comp fuel (hole l b) (l@b) f t bl br = Ok (hole l' b, f', t', bl', br') /\
    perm_in (b + 1) e l l' /\ BI l' b e f' t' bl' br' /\ t' - f' <= 128.
Proof.
  intros Hb. induction fuel as [|fuel IH]; intros l f t bl br HP He HB Hfu; cbn [block_loop]; change (2 * block_size) with 128;
    rewrite Z.gtb_ltb; destruct (Z.ltb_spec 128 (t - f)) as [G|G].
  { lia. }
  { exists l, f, t, bl, br. split; [reflexivity|]. split; [apply perm_in_refl; destruct HB; lia|]. split; [exact HB|lia]. }
  2:{ exists l, f, t, bl, br. split; [reflexivity|]. split; [apply perm_in_refl; destruct HB; lia|]. split; [exact HB|lia]. }
  destruct HB as (H1 & H2 & H3 & H4 & H5 & H6 & H7).
  pose proof (comp_pivot l b HP ltac:(unfold inr; lia)) as CP.
  assert (FL : exists bl1, (if is_nil bl then fill_l comp (Z.to_nat block_size) (hole l b) (l@b) f 0 [] else Ok bl) = Ok bl1 /\ OffL l f 64 (l@b) bl1).
  { destruct (is_nil_spec bl) as [[-> ->]|[-> Hn]].
    - change (Z.to_nat block_size) with 64%nat.
      destruct (fill_l_ok b f (l@b) 64 l 0 []) as (b1 & -> & HO); try lia; [cbn; lia|apply OffL_0|intros; apply CP; lia|].
      exists b1. split; [reflexivity|exact HO].
    - exists bl. split; [reflexivity|]. apply H6. exact Hn. }
  destruct FL as (bl1 & -> & OL). cbn [bind].
  assert (FR : exists br1, (if is_nil br then fill_r comp (Z.to_nat block_size) (hole l b) (l@b) t 0 [] else Ok br) = Ok br1 /\ OffR l t 64 (l@b) br1).
  { destruct (is_nil_spec br) as [[-> ->]|[-> Hn]].
    - change (Z.to_nat block_size) with 64%nat.
      destruct (fill_r_ok b t (l@b) 64 l 0 []) as (b1 & -> & HO); try lia; [cbn; lia|apply OffR_0|intros; apply CP; lia|].
      exists b1. split; [reflexivity|exact HO].
    - exists br. split; [reflexivity|]. apply H7. exact Hn. }
  destruct FR as (br1 & -> & OR). cbn [bind]. change block_size with 64.
  destruct (swap_block_ok b l f t (l@b) bl1 br1 64 64) as (l1 & bl2 & br2 & -> & P1 & OL' & OR' & NN); try assumption; try lia.
  cbn [bind].
  assert (HL : len l1 = len l) by (apply (perm_in_len _ _ _ _ P1)).
  assert (Eb : l1@b = l@b) by (apply (perm_in_at d _ _ _ _ b P1); lia).
  assert (P1' : perm_in (b + 1) e l l1) by (eapply perm_in_widen; [exact P1|lia|lia]).
  assert (Lo : forall i, b < i < f -> slt (l1@i) (l@b)).
  { intros i Hi. rewrite (perm_in_at d _ _ _ _ i P1) by lia. apply H3; lia. }
  assert (Hi_ : forall i, t <= i < e -> le (l@b) (l1@i)).
  { intros i Hi. rewrite (perm_in_at d _ _ _ _ i P1) by lia. apply H4; lia. }
  rewrite <- Eb.
  destruct (IH l1 (if is_nil bl2 then f + 64 else f) (if is_nil br2 then t - 64 else t) bl2 br2) as (l' & f' & t' & bl' & br' & HE & P' & B' & D').
  - eapply perm0; eassumption.
  - lia.
  - rewrite <- Eb in OL', OR', Lo, Hi_.
    destruct (is_nil_spec bl2) as [[-> ->]|[-> Hn]]; destruct (is_nil_spec br2) as [[-> ->]|[-> Hn']].
    + split; [lia|]. split; [lia|]. split; [|split; [|split; [left; reflexivity|split; congruence]]].
      * intros i Hi. destruct (Z_lt_ge_dec i f); [apply Lo; lia|]. apply (OffL_nil _ _ _ _ OL'); lia.
      * intros i Hi. destruct (Z_lt_ge_dec i t); [|apply Hi_; lia]. apply (OffR_nil _ _ _ _ OR'); lia.
    + split; [lia|]. split; [lia|]. split; [|split; [exact Hi_|split; [left; reflexivity|split; [congruence|intros _; split; [lia|exact OR']]]]].
      intros i Hi. destruct (Z_lt_ge_dec i f); [apply Lo; lia|]. apply (OffL_nil _ _ _ _ OL'); lia.
    + split; [lia|]. split; [lia|]. split; [exact Lo|]. split; [|split; [right; reflexivity|split; [intros _; split; [lia|exact OL']|congruence]]].
      intros i Hi. destruct (Z_lt_ge_dec i t); [|apply Hi_; lia]. apply (OffR_nil _ _ _ _ OR'); lia.
    + destruct NN; contradiction.
  - destruct (is_nil_spec bl2) as [[-> ->]|[-> Hn]]; destruct (is_nil_spec br2) as [[-> ->]|[-> Hn']]; try lia.
    destruct NN; contradiction.
  - exists l', f', t', bl', br'. split; [exact HE|]. split; [eapply perm_in_trans; eassumption|]. split; assumption.
Qed.

(** The rest of the branchless partition after the first exchange. *)
Lemma partition_blocks_ok b e l f t : 0 <= b -> Permutation l0 l -> e <= len l -> BI l b e f t [] [] ->
  exists l' f', partition_blocks comp (hole l b) (l@b) f t = Ok (hole l' b, f') /\
    perm_in (b + 1) e l l' /\ split_at l' b e f'.
Proof.
  unfold partition_blocks.
  intros Hb HP He HB. rewrite hole_length.
  destruct (block_loop_ok b e Hb (S (length l)) l f t [] [] HP He HB) as (l1 & f1 & t1 & bl & br & -> & P1 & B1 & D1).
  { destruct HB as (? & ? & _). unfold len in *. lia. }
  cbn [bind]. assert (Eb : l1@b = l@b) by (apply (perm_in_at d _ _ _ _ b P1); lia). rewrite <- Eb.
  assert (HL : len l1 = len l) by (apply (perm_in_len _ _ _ _ P1)).
  assert (HP1 : Permutation l0 l1) by (eapply perm0; eassumption).
  destruct B1 as (H1 & H2 & H3 & H4 & H5 & H6 & H7).
  pose proof (comp_pivot l1 b HP1 ltac:(unfold inr; lia)) as CP. change block_size with 64.
  (* the sizes *)
  set (u := t1 - f1 - (if is_nil bl && is_nil br then 0 else 64)).
  assert (Sz : exists ls rs, (if negb (is_nil br) then (u, 64) else if negb (is_nil bl) then (64, u) else (Z.quot u 2, u - Z.quot u 2)) = (ls, rs) /\
     0 <= ls <= 64 /\ 0 <= rs <= 64 /\ ls + rs = t1 - f1 /\
     (bl <> [] -> ls = 64) /\ (br <> [] -> rs = 64) /\ (u = 0 -> ls = 0 /\ rs = 0 /\ bl = [] /\ br = [])).
  { unfold u. destruct (is_nil_spec bl) as [[-> ->]|[-> Hn]]; destruct (is_nil_spec br) as [[-> ->]|[-> Hn']]; cbn [andb negb].
    - eexists _, _. split; [reflexivity|]. repeat split; try congruence; lia.
    - specialize (H7 Hn'). eexists _, _. split; [reflexivity|]. repeat split; try congruence; lia.
    - specialize (H6 Hn). eexists _, _. split; [reflexivity|]. repeat split; try congruence; lia.
    - destruct H5; contradiction. }
  destruct Sz as (ls & rs & -> & Hls & Hrs & Hsum & Lbl & Lbr & Hu0).
  assert (FL : exists bl1, (if negb (u =? 0) && is_nil bl then fill_l comp (Z.to_nat ls) (hole l1 b) (l1@b) f1 0 [] else Ok bl) = Ok bl1 /\ OffL l1 f1 ls (l1@b) bl1).
  { destruct (Z.eqb_spec u 0) as [E|E]; cbn [negb andb].
    { destruct (Hu0 E) as (-> & _ & -> & _). exists []. split; [reflexivity|apply OffL_0]. }
    destruct (is_nil_spec bl) as [[-> ->]|[-> Hn]].
    - destruct (fill_l_ok b f1 (l1@b) (Z.to_nat ls) l1 0 []) as (b1 & -> & HO); try lia; [cbn; lia|apply OffL_0|intros; apply CP; lia|].
      exists b1. split; [reflexivity|]. replace (0 + Z.of_nat (Z.to_nat ls)) with ls in HO by lia. exact HO.
    - exists bl. split; [reflexivity|]. rewrite (Lbl Hn). apply H6. exact Hn. }
  destruct FL as (bl1 & -> & OL). cbn [bind].
  assert (FR : exists br1, (if negb (u =? 0) && is_nil br then fill_r comp (Z.to_nat rs) (hole l1 b) (l1@b) t1 0 [] else Ok br) = Ok br1 /\ OffR l1 t1 rs (l1@b) br1).
  { destruct (Z.eqb_spec u 0) as [E|E]; cbn [negb andb].
    { destruct (Hu0 E) as (_ & -> & _ & ->). exists []. split; [reflexivity|apply OffR_0]. }
    destruct (is_nil_spec br) as [[-> ->]|[-> Hn]].
    - destruct (fill_r_ok b t1 (l1@b) (Z.to_nat rs) l1 0 []) as (b1 & -> & HO); try lia; [cbn; lia|apply OffR_0|intros; apply CP; lia|].
      exists b1. split; [reflexivity|]. replace (0 + Z.of_nat (Z.to_nat rs)) with rs in HO by lia. exact HO.
    - exists br. split; [reflexivity|]. rewrite (Lbr Hn). apply H7. exact Hn. }
  destruct FR as (br1 & -> & OR). cbn [bind].
  destruct (swap_block_ok b l1 f1 t1 (l1@b) bl1 br1 ls rs) as (l2 & bl2 & br2 & -> & P2 & OL2 & OR2 & NN); try assumption; try lia.
  cbn [bind].
  assert (HL2 : len l2 = len l1) by (apply (perm_in_len _ _ _ _ P2)).
  assert (Eb2 : l2@b = l1@b) by (apply (perm_in_at d _ _ _ _ b P2); lia).
  assert (Lo : forall i, b < i < f1 -> slt (l2@i) (l1@b)).
  { intros i Hi. rewrite (perm_in_at d _ _ _ _ i P2) by lia. apply H3; lia. }
  assert (Hi_ : forall i, t1 <= i < e -> le (l1@b) (l2@i)).
  { intros i Hi. rewrite (perm_in_at d _ _ _ _ i P2) by lia. apply H4; lia. }
  assert (P12 : perm_in (b + 1) e l l2) by (eapply perm_in_trans; [exact P1|eapply perm_in_widen; [exact P2|lia|lia]]).
  destruct (is_nil_spec bl2) as [[-> ->]|[-> Hn]]; destruct (is_nil_spec br2) as [[-> ->]|[-> Hn']]; cbn [bind].
  - exists l2, (f1 + ls). split; [reflexivity|]. split; [exact P12|]. split; [lia|]. rewrite Eb2. split.
    + intros i Hi. destruct (Z_lt_ge_dec i f1); [apply Lo; lia|]. apply (OffL_nil _ _ _ _ OL2); lia.
    + intros i Hi. destruct (Z_lt_ge_dec i t1); [|apply Hi_; lia]. apply (OffR_nil _ _ _ _ OR2); lia.
  - destruct (rest_r_ok b t1 (l1@b) Hb (rev br2) l2 (f1 + ls)) as (l3 & f3 & -> & P3 & Hf3 & A1 & A2); try lia.
    { apply sorted_rev. apply OR2. }
    { intros o. rewrite <- in_rev. rewrite (proj1 OR2). replace (t1 - (f1 + ls)) with rs by lia. reflexivity. }
    assert (Eb3 : l3@b = l2@b) by (apply (perm_in_at d _ _ _ _ b P3); lia).
    exists l3, f3. split; [reflexivity|]. split; [eapply perm_in_trans; [exact P12|eapply perm_in_widen; [exact P3|lia|lia]]|].
    split; [lia|]. rewrite Eb3, Eb2. split.
    + intros i Hi. destruct (Z_lt_ge_dec i (f1 + ls)); [|apply A1; lia].
      rewrite (perm_in_at d _ _ _ _ i P3) by lia. destruct (Z_lt_ge_dec i f1); [apply Lo; lia|]. apply (OffL_nil _ _ _ _ OL2); lia.
    + intros i Hi. destruct (Z_lt_ge_dec i t1); [apply A2; lia|].
      rewrite (perm_in_at d _ _ _ _ i P3) by lia. apply Hi_; lia.
  - destruct (rest_l_ok b f1 (l1@b) ltac:(lia) (rev bl2) l2 (t1 - rs)) as (l3 & t3 & -> & P3 & Hf3 & A1 & A2); try lia.
    { apply sorted_rev. apply OL2. }
    { intros o. rewrite <- in_rev. rewrite (proj1 OL2). replace (t1 - rs - f1) with ls by lia. reflexivity. }
    cbn [bind fst snd].
    assert (Eb3 : l3@b = l2@b) by (apply (perm_in_at d _ _ _ _ b P3); lia).
    exists l3, t3. split; [reflexivity|]. split; [eapply perm_in_trans; [exact P12|eapply perm_in_widen; [exact P3|lia|lia]]|].
    split; [lia|]. rewrite Eb3, Eb2. split.
    + intros i Hi. destruct (Z_lt_ge_dec i f1); [|apply A1; lia].
      rewrite (perm_in_at d _ _ _ _ i P3) by lia. apply Lo; lia.
    + intros i Hi. destruct (Z_lt_ge_dec i (t1 - rs)); [apply A2; lia|].
      rewrite (perm_in_at d _ _ _ _ i P3) by lia.
      destruct (Z_lt_ge_dec i t1); [|apply Hi_; lia]. apply (OffR_nil _ _ _ _ OR2); lia.
  - destruct NN; contradiction.
Qed.

Lemma partition_right_branchless_ok l b e : Permutation l0 l -> 0 <= b -> e <= len l -> (exists k, b < k < e /\ le (l@b) (l@k)) ->
  exists l' pos fl, partition_right_branchless comp (full l) b e = Ok (full l', pos, fl) /\ perm_in b e l l' /\ right_post l' b e pos (l@b).
Proof.
  intros HP Hb He Hk. unfold partition_right_branchless.
  destruct (right_head_ok l b e HP Hb He Hk) as (f & t & -> & HRI). cbn [bind].
  assert (M : exists l1 f1, (let! af := (if f >=? t then Ok (hole l b, f) else let! a := iter_swap (hole l b) f t in Ok (a, f + 1)) in
     let '(a, first) := af in partition_blocks comp a (l@b) first t) = Ok (hole l1 b, f1) /\ perm_in (b + 1) e l l1 /\ split_at l1 b e f1).
  { rewrite Z.geb_leb. destruct (Z.leb_spec t f) as [L|L].
    - cbn [bind]. destruct (Z.eq_dec t f) as [->|N].
      + apply partition_blocks_ok; try assumption. pose proof (RI_stop _ _ _ _ _ HRI L) as (S1 & S2 & S3).
        destruct HRI as (H1 & H2 & H3 & H4 & H5 & H6).
        split; [lia|]. split; [lia|]. split; [exact S2|]. split; [exact S3|]. split; [left; reflexivity|]. split; congruence.
      + pose proof (RI_stop _ _ _ _ _ HRI L) as S. destruct HRI as (H1 & H2 & H3 & H4 & H5 & H6).
        assert (t = f - 1) as -> by lia.
        exists l, f. split; [|split; [apply perm_in_refl; lia|exact S]].
        unfold partition_blocks. cbn [block_loop]. replace (f - 1 - f) with (-1) by lia. change (-1 >? 2 * block_size) with false. cbn [bind is_nil andb negb].
        replace (f - 1 - f - 0) with (-1) by lia. change (Z.quot (-1) 2) with 0. change (-1 =? 0) with false. cbn [negb andb].
        change (Z.to_nat 0) with 0%nat. change (Z.to_nat (-1 - 0)) with 0%nat. cbn [fill_l fill_r bind].
        unfold swap_block. cbn [length Nat.min firstn combine Nat.eqb swap_offsets swap_pairs bind skipn is_nil].
        rewrite Z.add_0_r. reflexivity.
    - destruct HRI as (H1 & H2 & H3 & H4 & H5 & H6). specialize (H6 L).
      rewrite (swap_hole d) by atlia. cbn [bind]. set (l1 := swp d l f t).
      assert (HL : len l1 = len l) by apply len_swp.
      assert (Eb : l1@b = l@b) by (unfold l1; swp_cases; reflexivity).
      assert (P1 : perm_in (b + 1) e l l1) by (apply perm_in_swp; lia).
      rewrite <- Eb. destruct (partition_blocks_ok b e l1 (f + 1) t) as (l2 & f2 & HE & P2 & S2).
      + exact Hb.
      + eapply perm0; eassumption.
      + lia.
      + split; [lia|]. split; [lia|]. rewrite Eb. split; [|split; [|split; [left; reflexivity|split; congruence]]].
        * intros i Hi. unfold l1. swp_cases; [exact H6|]. apply H3; lia.
        * intros i Hi. unfold l1. swp_cases; [exact H4|]. apply H5; lia.
      + exists l2, f2. split; [exact HE|]. split; [eapply perm_in_trans; eassumption|exact S2]. }
  destruct M as (l1 & f1 & M & P1 & S1).
  destruct (place_right l l1 b e f1 Hb He P1 S1) as (l' & PR & P' & R').
  exists l', (f1 - 1), (f >=? t). split; [|split; assumption].
  destruct (f >=? t).
  - cbn [bind] in M |- *. rewrite M. cbn [bind]. rewrite PR. reflexivity.
  - destruct (iter_swap (hole l b) f t) as [a1| | |]; cbn [bind] in M |- *; try discriminate M.
    rewrite M. cbn [bind]. rewrite PR. reflexivity.
Qed.

(** ** Breaking patterns *)
Lemma shuffle_ok (l : list T) b pos e : 0 <= b <= pos -> pos < e <= len l ->
  exists l', shuffle (full l) b pos e = Ok (full l') /\
    exists l1, perm_in b pos l l1 /\ perm_in (pos + 1) e l1 l'.
Proof.
  intros Hb He. unfold shuffle.
  assert (A : exists l1, shuffle_left (full l) b pos = Ok (full l1) /\ perm_in b pos l l1).
  { unfold shuffle_left. change insertion_sort_threshold with 24. change ninther_threshold with 128. rewrite Z.geb_leb, Z.gtb_ltb.
    destruct (Z.leb_spec 24 (pos - b)).
    2:{ exists l. split; [reflexivity|apply perm_in_refl; lia]. }
    rewrite (swap_full d) by atlia. cbn [bind]. rewrite (swap_full d) by atlia. cbn [bind].
    destruct (Z.ltb_spec 128 (pos - b)).
    - do 4 (rewrite (swap_full d) by atlia; cbn [bind]). eexists. split; [reflexivity|].
      do 5 (eapply perm_in_trans; [|apply perm_in_swp; rewrite ?len_swp; lia]). apply perm_in_swp; lia.
    - eexists. split; [reflexivity|].
      eapply perm_in_trans; [|apply perm_in_swp; rewrite ?len_swp; lia]. apply perm_in_swp; lia. }
  destruct A as (l1 & -> & P1). cbn [bind]. pose proof (perm_in_len _ _ _ _ P1) as HL.
  unfold shuffle_right. change insertion_sort_threshold with 24. change ninther_threshold with 128. rewrite Z.geb_leb, Z.gtb_ltb.
  destruct (Z.leb_spec 24 (e - (pos + 1))).
  2:{ exists l1. split; [reflexivity|]. exists l1. split; [exact P1|apply perm_in_refl; lia]. }
  rewrite (swap_full d) by atlia. cbn [bind]. rewrite (swap_full d) by atlia. cbn [bind].
  destruct (Z.ltb_spec 128 (e - (pos + 1))).
  - do 4 (rewrite (swap_full d) by atlia; cbn [bind]). eexists. split; [reflexivity|]. exists l1. split; [exact P1|].
    do 5 (eapply perm_in_trans; [|apply perm_in_swp; rewrite ?len_swp; lia]). apply perm_in_swp; lia.
  - eexists. split; [reflexivity|]. exists l1. split; [exact P1|].
    eapply perm_in_trans; [|apply perm_in_swp; rewrite ?len_swp; lia]. apply perm_in_swp; lia.
Qed.

(** ** Heap sort of a range *)
Lemma get_range_full (p m s : list T) : get_range (length m) (full (p ++ m ++ s)) (len p) = Ok m.
Proof.
  revert p. induction m as [|x m IH]; intros p; [reflexivity|]. cbn [length get_range].
  rewrite (get_full d) by (unfold inr, len; rewrite !app_length; cbn; lia). cbn [bind].
  replace (len p + 1) with (len (p ++ [x])) by (unfold len; rewrite app_length; cbn; lia).
  replace (p ++ (x :: m) ++ s) with ((p ++ [x]) ++ m ++ s) by (rewrite <- app_assoc; reflexivity).
  rewrite IH. cbn [bind]. unfold at_, len. rewrite Nat2Z.id, <- app_assoc. rewrite app_nth2 by lia.
  rewrite Nat.sub_diag. reflexivity.
Qed.
Lemma upd_app {A} (p : list A) x y s : upd (p ++ x :: s) (length p) y = p ++ y :: s.
Proof. induction p as [|z p IH]; cbn; [reflexivity|]. rewrite IH. reflexivity. Qed.
Lemma put_range_full (m' : list T) : forall p m s, length m = length m' ->
  put_range (full (p ++ m ++ s)) (len p) m' = Ok (full (p ++ m' ++ s)).
Proof.
  induction m' as [|x m' IH]; intros p m s HL.
  - destruct m; [|cbn in HL; lia]. reflexivity.
  - destruct m as [|y m]; [cbn in HL; lia|]. cbn [put_range]. unfold put.
    rewrite set_cell_ok by (unfold zlen, len; rewrite full_length, !app_length; cbn; lia). cbn [bind].
    unfold len at 1. rewrite Nat2Z.id.
    assert (E : upd (full (p ++ (y :: m) ++ s)) (length p) (Some x) = full ((p ++ [x]) ++ m ++ s)).
    { unfold full. rewrite <- map_upd. cbn [app]. rewrite upd_app. rewrite <- app_assoc. reflexivity. }
    rewrite E. replace (len p + 1) with (len (p ++ [x])) by (unfold len; rewrite app_length; cbn; lia).
    rewrite IH by (cbn in HL; lia). rewrite <- app_assoc. reflexivity.
Qed.

Lemma split_nth (m : list T) u : (u < length m)%nat -> m = firstn u m ++ nth u m d :: skipn (S u) m.
Proof.
  revert u. induction m as [|x m IH]; intros u H; [cbn in H; lia|]. destruct u as [|u]; [reflexivity|].
  cbn [firstn nth skipn app] in *. f_equal. apply IH. cbn in H. lia.
Qed.
(** ** The main loop *)

Lemma perm_in_sub_right b e b' l l' pos p : perm_in b' e l l' -> b <= pos < b' -> 0 <= b ->
  right_post l b e pos p -> right_post l' b e pos p.
Proof.
  intros HP Hb H0 (H1 & H2 & H3 & H4). split; [exact H1|].
  split; [rewrite (perm_in_at d _ _ _ _ pos HP) by lia; exact H2|]. split.
  - intros i Hi. rewrite (perm_in_at d _ _ _ _ i HP) by lia. apply H3; lia.
  - intros i Hi. destruct (Z_lt_ge_dec i b').
    + rewrite (perm_in_at d _ _ _ _ i HP) by lia. apply H4; lia.
    + apply (perm_in_forall d b' e l l' (fun x => le p x) HP); [|lia]. intros k Hk. apply H4; lia.
Qed.
Lemma perm_in_sub_left b e l l' pos p : perm_in b pos l l' -> 0 <= b ->
  right_post l b e pos p -> right_post l' b e pos p.
Proof.
  intros HP H0 (H1 & H2 & H3 & H4). split; [exact H1|].
  split; [rewrite (perm_in_at d _ _ _ _ pos HP) by lia; exact H2|]. split.
  - apply (perm_in_forall d b pos l l' (fun x => slt x p) HP H3).
  - intros i Hi. rewrite (perm_in_at d _ _ _ _ i HP) by lia. apply H4; lia.
Qed.

(** Sorting the two sides of the pivot sorts the range. *)
Lemma two_sides l b e pos p l1 l2 : 0 <= b -> e <= len l -> right_post l b e pos p ->
  perm_in b pos l l1 -> perm_in (pos + 1) e l1 l2 -> perm_in b e l l2 /\ right_post l2 b e pos p.
Proof.
  intros Hb He HR P1 P2. pose proof (proj1 HR) as Hp. pose proof (perm_in_len _ _ _ _ P1) as HL. split.
  - eapply perm_in_trans; eapply perm_in_widen; try eassumption; lia.
  - eapply perm_in_sub_right; [exact P2|lia|lia|]. eapply perm_in_sub_left; eassumption.
Qed.

(** ** Memory safety needs asymmetry only *)
Section Safe.
Variable hs : list T -> list T.
Hypothesis HSP : forall m, Permutation m (hs m).

Lemma sift_loop_safe fuel : forall guarded l begin s cur,
  Permutation l0 l -> 0 <= begin -> begin < s <= cur -> cur < len l -> s - begin < Z.of_nat fuel ->
  (guarded = true \/ (1 <= begin /\ le (l@(begin - 1)) (l@s))) ->
  exists l' s', sift_loop comp fuel guarded (hole l s) begin s (l@s) = Ok (hole l' s', s') /\
    perm_in begin (cur + 1) l l' /\ begin <= s' <= cur /\ l'@s' = l@s.
Proof.
  induction fuel as [|fuel IH]; intros guarded l begin s cur HP Hb Hs Hc Hf Hg; [lia|].
  cbn [sift_loop]. rewrite (move_hole d) by atlia. cbn [bind].
  set (l1 := swp d l s (s - 1)).
  assert (HL : len l1 = len l) by apply len_swp.
  assert (HP1 : perm_in begin (cur + 1) l l1) by (apply perm_in_swp; lia).
  assert (Hat : l1@(s - 1) = l@s) by (unfold l1; swp_cases; reflexivity).
  destruct (guarded && (s - 1 =? begin)) eqn:Eg.
  { exists l1, (s - 1). split; [reflexivity|]. split; [exact HP1|]. split; [lia|exact Hat]. }
  assert (Hlow : 0 <= s - 2).
  { destruct Hg as [->|[Hg _]]; [|lia]. cbn in Eg. lia. }
  replace (s - 1 - 1) with (s - 2) by lia.
  rewrite (get_hole d) by (unfold inr; try rewrite HL; lia). cbn [bind].
  assert (HPl : Permutation l0 l1) by (eapply perm_trans; [exact HP|eapply perm_in_perm; exact HP1]).
  assert (Ecmp : comp l@s l1@(s - 2) = lt l1@(s - 1) l1@(s - 2))
    by (rewrite <- Hat; apply AG; try assumption; unfold inr; lia).
  rewrite Ecmp. destruct (lt l1@(s - 1) l1@(s - 2)) eqn:Ec.
  - assert (Hgt : begin < s - 1).
    { destruct Hg as [->|[Hg1 Hg2]].
      - cbn in Eg. lia.
      - destruct (Z.eq_dec (s - 1) begin) as [E|N]; [|lia]. exfalso.
        rewrite Hat in Ec. assert (E2 : l1@(s - 2) = l@(begin - 1)) by (unfold l1; swp_cases; f_equal; lia).
        rewrite E2 in Ec. unfold le in Hg2. congruence. }
    destruct (IH guarded l1 begin (s - 1) cur) as (l' & s' & HE & HP' & Hs' & Hat'); try assumption; try lia.
    { destruct Hg as [Hg|[Hg1 Hg2]]; [left; exact Hg|right]. split; [lia|]. rewrite Hat.
      assert (E2 : l1@(begin - 1) = l@(begin - 1)) by (unfold l1; swp_cases; reflexivity). rewrite E2. exact Hg2. }
    rewrite Hat in HE. exists l', s'. split; [exact HE|]. split; [eapply perm_in_trans; eassumption|].
    split; [lia|congruence].
  - exists l1, (s - 1). split; [reflexivity|]. split; [exact HP1|]. split; [lia|exact Hat].
Qed.

Lemma insert_one_safe guarded l begin cur e : Permutation l0 l -> 0 <= begin < cur -> cur < e -> e <= len l ->
  guard_ok guarded l begin e ->
  exists l' s', insert_one comp guarded (full l) begin cur = Ok (full l', s') /\ perm_in begin (cur + 1) l l'.
Proof.
  intros HP Hb Hc He Hg. unfold insert_one.
  rewrite !(get_full d) by atlia. cbn [bind].
  destruct (comp l@cur l@(cur - 1)) eqn:Ec.
  - rewrite (take_full d) by atlia. cbn [bind]. rewrite hole_length.
    destruct (sift_loop_safe (S (length l)) guarded l begin cur cur) as (l' & s' & HE & HP' & Hs' & Hat); try assumption; try lia.
    { unfold len in *. lia. }
    { destruct Hg as [Hg|[Hg1 Hg2]]; [left; exact Hg|right]. split; [exact Hg1|]. apply Hg2. lia. }
    rewrite HE. cbn [bind]. rewrite <- Hat.
    pose proof (perm_in_len _ _ _ _ HP') as HL.
    rewrite (put_hole d) by (unfold inr; lia). cbn [bind]. eauto 10.
  - exists l, cur. split; [reflexivity|]. apply perm_in_refl; lia.
Qed.

Lemma insertion_loop_safe fuel : forall guarded l begin cur e, Permutation l0 l -> 0 <= begin < cur -> cur <= e -> e <= len l ->
  guard_ok guarded l begin e -> e - cur <= Z.of_nat fuel ->
  exists l', insertion_loop comp fuel guarded (full l) begin cur e = Ok (full l') /\ perm_in begin e l l'.
Proof.
  induction fuel as [|fuel IH]; intros guarded l begin cur e HP Hb Hc He Hg Hf; cbn [insertion_loop].
  - destruct (Z.eqb_spec cur e) as [->|N]; [|lia]. exists l. split; [reflexivity|]. apply perm_in_refl; lia.
  - destruct (Z.eqb_spec cur e) as [->|N].
    { exists l. split; [reflexivity|]. apply perm_in_refl; lia. }
    destruct (insert_one_safe guarded l begin cur e) as (l1 & s & HE & HP1); try assumption; try lia.
    rewrite HE. cbn [bind fst].
    pose proof (perm_in_len _ _ _ _ HP1) as HL.
    assert (HP1e : perm_in begin e l l1) by (eapply perm_in_widen; [exact HP1|lia|lia]).
    destruct (IH guarded l1 begin (cur + 1) e) as (l' & HE' & HP'); try assumption; try lia.
    { eapply perm0; eassumption. }
    { eapply guard_ok_perm; eassumption. }
    exists l'. split; [exact HE'|]. eapply perm_in_trans; eassumption.
Qed.

Lemma insertion_sort_safe guarded l b e : Permutation l0 l -> 0 <= b <= e -> e <= len l -> guard_ok guarded l b e ->
  exists l', insertion_sort comp guarded (full l) b e = Ok (full l') /\ perm_in b e l l'.
Proof.
  intros HP Hb He Hg. unfold insertion_sort. destruct (Z.eqb_spec b e) as [->|N].
  - exists l. split; [reflexivity|]. apply perm_in_refl; lia.
  - rewrite full_length. apply insertion_loop_safe; try assumption; try lia. unfold len in *. lia.
Qed.

Lemma partial_loop_safe fuel : forall l begin cur e limit, Permutation l0 l -> 0 <= begin < cur -> cur <= e -> e <= len l ->
  e - cur <= Z.of_nat fuel ->
  exists l' r, partial_loop comp fuel (full l) begin cur e limit = Ok (full l', r) /\ perm_in begin e l l'.
Proof.
  induction fuel as [|fuel IH]; intros l begin cur e limit HP Hb Hc He Hf; cbn [partial_loop].
  - destruct (Z.eqb_spec cur e) as [->|N]; [|lia]. exists l, true. split; [reflexivity|]. apply perm_in_refl; lia.
  - destruct (Z.eqb_spec cur e) as [->|N].
    { exists l, true. split; [reflexivity|]. apply perm_in_refl; lia. }
    destruct (insert_one_safe true l begin cur e) as (l1 & s & HE & HP1); try assumption; try lia; [left; reflexivity|].
    rewrite HE. cbn [bind fst snd].
    pose proof (perm_in_len _ _ _ _ HP1) as HL.
    assert (HP1e : perm_in begin e l l1) by (eapply perm_in_widen; [exact HP1|lia|lia]).
    destruct (_ >? _).
    { exists l1, false. split; [reflexivity|]. exact HP1e. }
    destruct (IH l1 begin (cur + 1) e (limit + (cur - s))) as (l' & r & HE' & HP'); try assumption; try lia.
    { eapply perm0; eassumption. }
    exists l', r. split; [exact HE'|]. eapply perm_in_trans; eassumption.
Qed.

Lemma partial_safe l b e : Permutation l0 l -> 0 <= b <= e -> e <= len l ->
  exists l' r, partial_insertion_sort comp (full l) b e = Ok (full l', r) /\ perm_in b e l l'.
Proof.
  intros HP Hb He. unfold partial_insertion_sort. destruct (Z.eqb_spec b e) as [->|N].
  - exists l, true. split; [reflexivity|]. apply perm_in_refl; lia.
  - rewrite full_length. apply partial_loop_safe; try assumption; try lia. unfold len in *. lia.
Qed.

Lemma heap_sort_range_safe l b e : 0 <= b <= e -> e <= len l ->
  exists l', heap_sort_range hs (full l) b e = Ok (full l') /\ perm_in b e l l'.
Proof.
  intros Hb He. unfold heap_sort_range.
  set (p := firstn (Z.to_nat b) l). set (m := firstn (Z.to_nat (e - b)) (skipn (Z.to_nat b) l)).
  set (s := skipn (Z.to_nat (e - b)) (skipn (Z.to_nat b) l)).
  assert (E : l = p ++ m ++ s) by (unfold p, m, s; rewrite !firstn_skipn; reflexivity).
  assert (Lp : len p = b) by (unfold p, len in *; rewrite firstn_length; lia).
  assert (Lm : len m = e - b) by (unfold m, len in *; rewrite firstn_length, skipn_length; lia).
  clearbody p m s. subst l.
  replace (Z.to_nat (e - b)) with (length m) by (unfold len in Lm; lia).
  pose proof (get_range_full p m s) as GR. rewrite Lp in GR. rewrite GR. cbn [bind].
  pose proof (HSP m) as Pm.
  pose proof (put_range_full (hs m) p m s (Permutation_length Pm)) as PR. rewrite Lp in PR. rewrite PR.
  exists (p ++ hs m ++ s). split; [reflexivity|].
  assert (Lh : len (hs m) = len m) by (unfold len; rewrite (Permutation_length Pm); reflexivity).
  split; [lia|]. split; [exact He|]. split; [apply Permutation_app_head, Permutation_app_tail; exact Pm|]. unfold len in *. split.
  + rewrite !firstn_app. replace (Z.to_nat b - length p)%nat with 0%nat by lia. reflexivity.
  + rewrite !skipn_app. rewrite (skipn_all2 p), (skipn_all2 m), (skipn_all2 (hs m)) by lia. rewrite !app_nil_l. f_equal. lia.
Qed.

Lemma pdqsort_loop_safe branchless : forall fuel l b e bad leftmost, Permutation l0 l -> 0 <= b <= e -> e <= len l ->
  e - b < Z.of_nat fuel -> guard_ok leftmost l b e ->
  exists l', pdqsort_loop comp hs fuel branchless (full l) b e bad leftmost = Ok (full l') /\ perm_in b e l l'.
Proof.
  induction fuel as [|fuel IH]; intros l b e bad leftmost HP Hb He Hfu Hg; [lia|].
  cbn [pdqsort_loop]. change insertion_sort_threshold with 24.
  destruct (Z.ltb_spec (e - b) 24) as [Hsz|Hsz].
  { apply insertion_sort_safe; assumption. }
  destruct (choose_pivot_ok l b e HP (proj1 Hb) He Hsz) as (l1 & -> & P1 & Med). cbn [bind].
  pose proof (perm_in_len _ _ _ _ P1) as L1. pose proof (perm0 _ _ _ _ HP P1) as HP1.
  pose proof (guard_ok_perm _ _ _ _ _ Hg P1) as Hg1.
  assert (SM : exists same, (if leftmost then Ok false else
       let! x := get (full l1) (b - 1) in let! y := get (full l1) b in Ok (negb (comp x y))) = Ok same /\
     (same = true -> leftmost = false)).
  { destruct leftmost; [exists false; split; [reflexivity|discriminate]|].
    destruct Hg1 as [Hg1|[Hg1 Hg2]]; [discriminate|].
    rewrite !(get_full d) by (unfold inr; lia). cbn [bind].
    eexists. split; [reflexivity|]. reflexivity. }
  destruct SM as (same & -> & Hsame). cbn [bind]. destruct same.
  - destruct (partition_left_ok l1 b e HP1 (proj1 Hb) ltac:(lia) (proj2 Med)) as (l2 & pos & -> & P2 & Hpos & E2 & Lo & Hi_).
    cbn [bind fst snd]. pose proof (perm_in_len _ _ _ _ P2) as L2. pose proof (perm0 _ _ _ _ HP1 P2) as HP2.
    destruct (IH l2 (pos + 1) e bad leftmost) as (l3 & -> & P3); try assumption; try lia.
    { right. split; [lia|]. intros i Hi. replace (pos + 1 - 1) with pos by lia. rewrite E2. apply lt_asym. apply Hi_; lia. }
    exists l3. split; [reflexivity|]. pose proof (perm_in_len _ _ _ _ P3) as L3.
    assert (P12 : perm_in b e l l2) by (eapply perm_in_trans; eassumption).
    eapply perm_in_trans; [exact P12|eapply perm_in_widen; [exact P3|lia|lia]].
  - clear Hsame.
    assert (PR : exists l2 pos fl, (if branchless then partition_right_branchless comp (full l1) b e else partition_right comp (full l1) b e) = Ok (full l2, pos, fl) /\
      perm_in b e l1 l2 /\ right_post l2 b e pos (l1@b)).
    { destruct branchless; [apply partition_right_branchless_ok|apply partition_right_ok]; try assumption; try lia; apply Med. }
    destruct PR as (l2 & pos & fl & -> & P2 & R2). cbn [bind].
    pose proof (perm_in_len _ _ _ _ P2) as L2. pose proof (perm0 _ _ _ _ HP1 P2) as HP2.
    assert (P12 : perm_in b e l l2) by (eapply perm_in_trans; eassumption).
    pose proof (guard_ok_perm _ _ _ _ _ Hg1 P2) as Hg2. pose proof (proj1 R2) as Hpos.
    set (hu := (pos - b <? Z.quot (e - b) 8) || (e - (pos + 1) <? Z.quot (e - b) 8)). clearbody hu.
    destruct (hu && (bad - 1 =? 0)).
    { destruct (heap_sort_range_safe l2 b e Hb ltac:(lia)) as (l3 & -> & P3). exists l3. split; [reflexivity|].
      eapply perm_in_trans; eassumption. }
    assert (MID : exists l3 dn, (if hu then let! a := shuffle (full l2) b pos e in Ok (a, false)
       else if fl then let! r := partial_insertion_sort comp (full l2) b pos in
              if snd r then partial_insertion_sort comp (fst r) (pos + 1) e else Ok r
            else Ok (full l2, false)) = Ok (full l3, dn) /\
       perm_in b e l l3 /\ right_post l3 b e pos (l1@b)).
    { destruct hu.
      - destruct (shuffle_ok l2 b pos e ltac:(lia) ltac:(lia)) as (l3 & -> & l3' & Pa & Pb). cbn [bind].
        destruct (two_sides l2 b e pos (l1@b) l3' l3) as [Pc Rc]; try assumption; try lia.
        exists l3, false. split; [reflexivity|]. split; [eapply perm_in_trans; eassumption|exact Rc].
      - destruct fl.
        2:{ exists l2, false. split; [reflexivity|]. split; [exact P12|exact R2]. }
        destruct (partial_safe l2 b pos HP2 ltac:(lia) ltac:(lia)) as (l3 & r1 & -> & Pa). cbn [bind fst snd].
        pose proof (perm_in_len _ _ _ _ Pa) as L3. destruct r1.
        + destruct (partial_safe l3 (pos + 1) e (perm0 _ _ _ _ HP2 Pa) ltac:(lia) ltac:(lia)) as (l4 & r2 & -> & Pb).
          destruct (two_sides l2 b e pos (l1@b) l3 l4) as [Pc Rc]; try assumption; try lia.
          exists l4, r2. split; [reflexivity|]. split; [eapply perm_in_trans; eassumption|exact Rc].
        + destruct (two_sides l2 b e pos (l1@b) l3 l3) as [Pc Rc]; try assumption; try lia; [apply perm_in_refl; lia|].
          exists l3, false. split; [reflexivity|]. split; [eapply perm_in_trans; eassumption|exact Rc]. }
    destruct MID as (l3 & dn & -> & P3 & R3). cbn [bind]. destruct dn.
    { exists l3. split; [reflexivity|exact P3]. }
    pose proof (perm_in_len _ _ _ _ P3) as L3. pose proof (perm0 _ _ _ _ HP P3) as HP3.
    assert (Hg3 : guard_ok leftmost l3 b pos).
    { destruct (guard_ok_perm _ _ _ _ _ Hg P3) as [G|[G1 G2]]; [left; exact G|right; split; [exact G1|intros; apply G2; lia]]. }
    destruct (IH l3 b pos (if hu then bad - 1 else bad) leftmost) as (l4 & -> & P4); try assumption; try lia.
    cbn [bind]. pose proof (perm_in_len _ _ _ _ P4) as L4.
    pose proof (perm_in_sub_left b e l3 l4 pos (l1@b) P4 ltac:(lia) R3) as R4.
    destruct (IH l4 (pos + 1) e (if hu then bad - 1 else bad) false) as (l5 & -> & P5); try lia.
    { exact (perm0 _ _ _ _ HP3 P4). }
    { right. split; [lia|]. intros i Hi. replace (pos + 1 - 1) with pos by lia.
      destruct R4 as (_ & R42 & _ & R44). rewrite R42. apply R44; lia. }
    exists l5. split; [reflexivity|].
    destruct (two_sides l3 b e pos (l1@b) l4 l5) as [Pc Rc]; try assumption; try lia.
    eapply perm_in_trans; eassumption.
Qed.

Lemma pdqsort_safe branchless l : Permutation l0 l ->
  exists l', pdqsort comp hs branchless (full l) = Ok (full l') /\ Permutation l l'.
Proof.
  intros HP. unfold pdqsort. rewrite full_len, full_length.
  destruct (Z.eqb_spec (len l) 0) as [E|E].
  - exists l. split; reflexivity.
  - destruct (pdqsort_loop_safe branchless (S (length l)) l 0 (len l) (log2 (len l)) true) as (l' & HE & P'); try assumption.
    + unfold len; lia.
    + lia.
    + unfold len; lia.
    + left; reflexivity.
    + exists l'. split; [exact HE|]. eapply perm_in_perm; exact P'.
Qed.
End Safe.

(** ** The order is a strict weak order *)
Section Order.
Hypothesis SWO : strict_weak_order lt.
Variable hs : list T -> list T.
Hypothesis HS : forall m rest, Permutation l0 (m ++ rest) -> Permutation m (hs m) /\ sorted lt (hs m).

Lemma le_refl x : le x x.
Proof. apply (swo_irrefl _ SWO). Qed.
Lemma le_trans x y z : le x y -> le y z -> le x z.
Proof.
  unfold le. intros H1 H2. destruct (lt z x) eqn:E; [|reflexivity].
  (* z < x; if x < y then z < y, contradiction; so x ~ y; if y < z then y < x contradiction; so y ~ z; so x ~ z *)
  destruct (lt x y) eqn:E1.
  - pose proof (swo_trans _ SWO _ _ _ E E1). congruence.
  - destruct (lt y z) eqn:E2.
    + pose proof (swo_trans _ SWO _ _ _ E2 E). congruence.
    + destruct (swo_incomp _ SWO x y z E1 H1 E2 H2). congruence.
Qed.
Lemma slt_le_trans x y z : slt x y -> le y z -> slt x z.
Proof.
  intros H1 H2. destruct (le_or z x) as [H|H]; [|exact H].
  pose proof (le_trans _ _ _ H2 H). unfold le, slt in *. congruence.
Qed.
Lemma le_slt_trans x y z : le x y -> slt y z -> slt x z.
Proof.
  intros H1 H2. destruct (le_or z x) as [H|H]; [|exact H].
  pose proof (le_trans _ _ _ H H1). unfold le, slt in *. congruence.
Qed.

(** ** Insertion sort *)

Lemma sift_loop_ok fuel : forall guarded l begin s cur,
  Permutation l0 l -> 0 <= begin -> begin < s <= cur -> cur < len l -> s - begin < Z.of_nat fuel ->
  slt (l@s) (l@(s - 1)) ->
  (guarded = true \/ (1 <= begin /\ le (l@(begin - 1)) (l@s))) ->
  (forall i j, begin <= i < j -> j <= cur -> j <> s -> le (l@i) (l@j)) ->
  exists l' s', sift_loop comp fuel guarded (hole l s) begin s (l@s) = Ok (hole l' s', s') /\
    perm_in begin (cur + 1) l l' /\ begin <= s' <= cur /\ l'@s' = l@s /\ srt l' begin (cur + 1).
Proof.
  induction fuel as [|fuel IH]; intros guarded l begin s cur HP Hb Hs Hc Hf Hlt Hg Inv; [lia|].
  cbn [sift_loop]. rewrite (move_hole d) by atlia. cbn [bind].
  set (l1 := swp d l s (s - 1)).
  assert (HL : len l1 = len l) by apply len_swp.
  assert (HP1 : perm_in begin (cur + 1) l l1) by (apply perm_in_swp; lia).
  assert (Hat : l1@(s - 1) = l@s) by (unfold l1; swp_cases; reflexivity).
  assert (Inv1 : forall i j, begin <= i < j -> j <= cur -> j <> s - 1 -> le (l1@i) (l1@j)).
  { intros i j Hi Hj Hjs. unfold l1. swp_cases; try subst.
    - apply Inv; lia.
    - apply lt_asym; assumption.
    - replace (s - 1) with (s - 1) by lia. destruct (Z.eq_dec j (s - 1)); [lia|]. apply Inv; lia.
    - apply Inv; lia.
    - apply Inv; lia. }
  assert (Stop : (s - 1 = begin \/ le (l1@(s - 2)) (l1@(s - 1))) -> srt l1 begin (cur + 1)).
  { intros HS0 i j Hi Hj. destruct (Z.eq_dec j (s - 1)) as [->|N]; [|apply Inv1; lia].
    destruct HS0 as [E|HS0]; [lia|]. destruct (Z.eq_dec i (s - 2)) as [->|Ni]; [exact HS0|].
    eapply le_trans; [|exact HS0]. apply Inv1; lia. }
  destruct (guarded && (s - 1 =? begin)) eqn:Eg.
  { exists l1, (s - 1). split; [reflexivity|]. split; [exact HP1|]. split; [lia|]. split; [exact Hat|]. apply Stop. lia. }
  assert (Hlow : 0 <= s - 2).
  { destruct Hg as [->|[Hg _]]; [|lia]. cbn in Eg. lia. }
  replace (s - 1 - 1) with (s - 2) by lia.
  rewrite (get_hole d) by (unfold inr; try rewrite HL; lia). cbn [bind].
  assert (HPl : Permutation l0 l1) by (eapply perm_trans; [exact HP|eapply perm_in_perm; exact HP1]).
  assert (Ecmp : comp l@s l1@(s - 2) = lt l1@(s - 1) l1@(s - 2))
    by (rewrite <- Hat; apply AG; try assumption; unfold inr; lia).
  rewrite Ecmp. destruct (lt l1@(s - 1) l1@(s - 2)) eqn:Ec.
  - assert (Hgt : begin < s - 1).
    { destruct Hg as [->|[Hg1 Hg2]].
      - cbn in Eg. lia.
      - destruct (Z.eq_dec (s - 1) begin) as [E|N]; [|lia]. exfalso.
        rewrite Hat in Ec. assert (E2 : l1@(s - 2) = l@(begin - 1)) by (unfold l1; swp_cases; f_equal; lia).
        rewrite E2 in Ec. unfold le in Hg2. congruence. }
    destruct (IH guarded l1 begin (s - 1) cur) as (l' & s' & HE & HP' & Hs' & Hat' & Hsrt); try assumption; try lia.
    { unfold slt. replace (s - 1 - 1) with (s - 2) by lia. exact Ec. }
    { destruct Hg as [Hg|[Hg1 Hg2]]; [left; exact Hg|right]. split; [lia|]. rewrite Hat.
      assert (E2 : l1@(begin - 1) = l@(begin - 1)) by (unfold l1; swp_cases; reflexivity). rewrite E2. exact Hg2. }
    rewrite Hat in HE. exists l', s'. split; [exact HE|]. split; [eapply perm_in_trans; eassumption|].
    split; [lia|]. split; [congruence|exact Hsrt].
  - exists l1, (s - 1). split; [reflexivity|]. split; [exact HP1|]. split; [lia|]. split; [exact Hat|].
    apply Stop. right. exact Ec.
Qed.

Lemma insert_one_ok guarded l begin cur e : Permutation l0 l -> 0 <= begin < cur -> cur < e -> e <= len l ->
  guard_ok guarded l begin e -> srt l begin cur ->
  exists l' s', insert_one comp guarded (full l) begin cur = Ok (full l', s') /\
    perm_in begin (cur + 1) l l' /\ begin <= s' <= cur /\ srt l' begin (cur + 1).
Proof.
  intros HP Hb Hc He Hg Hs. unfold insert_one.
  rewrite !(get_full d) by atlia. cbn [bind]. rewrite AG by (try assumption; atlia).
  destruct (lt l@cur l@(cur - 1)) eqn:Ec.
  - rewrite (take_full d) by atlia. cbn [bind]. rewrite hole_length.
    destruct (sift_loop_ok (S (length l)) guarded l begin cur cur) as (l' & s' & HE & HP' & Hs' & Hat & Hsrt); try assumption; try lia.
    { unfold len in *. lia. }
    { destruct Hg as [Hg|[Hg1 Hg2]]; [left; exact Hg|right]. split; [exact Hg1|]. apply Hg2. lia. }
    { intros i j Hi Hj Hn. apply Hs; lia. }
    rewrite HE. cbn [bind]. rewrite <- Hat.
    pose proof (perm_in_len _ _ _ _ HP') as HL.
    rewrite (put_hole d) by (unfold inr; lia). cbn [bind]. eauto 10.
  - exists l, cur. split; [reflexivity|]. split; [apply perm_in_refl; lia|]. split; [lia|].
    intros i j Hi Hj. destruct (Z.eq_dec j cur) as [->|N]; [|apply Hs; lia].
    destruct (Z.eq_dec i (cur - 1)) as [->|Ni]; [exact Ec|].
    eapply le_trans; [|exact Ec]. apply Hs; lia.
Qed.

Lemma insertion_loop_ok fuel : forall guarded l begin cur e, Permutation l0 l -> 0 <= begin < cur -> cur <= e -> e <= len l ->
  guard_ok guarded l begin e -> srt l begin cur -> e - cur <= Z.of_nat fuel ->
  exists l', insertion_loop comp fuel guarded (full l) begin cur e = Ok (full l') /\
    perm_in begin e l l' /\ srt l' begin e.
Proof.
  induction fuel as [|fuel IH]; intros guarded l begin cur e HP Hb Hc He Hg Hs Hf; cbn [insertion_loop].
  - destruct (Z.eqb_spec cur e) as [->|N]; [|lia]. exists l. split; [reflexivity|]. split; [apply perm_in_refl; lia|exact Hs].
  - destruct (Z.eqb_spec cur e) as [->|N].
    { exists l. split; [reflexivity|]. split; [apply perm_in_refl; lia|exact Hs]. }
    destruct (insert_one_ok guarded l begin cur e) as (l1 & s & HE & HP1 & _ & Hs1); try assumption; try lia.
    rewrite HE. cbn [bind fst].
    pose proof (perm_in_len _ _ _ _ HP1) as HL.
    assert (HP1e : perm_in begin e l l1) by (eapply perm_in_widen; [exact HP1|lia|lia]).
    destruct (IH guarded l1 begin (cur + 1) e) as (l' & HE' & HP' & Hs'); try assumption; try lia.
    { eapply perm0; eassumption. }
    { eapply guard_ok_perm; eassumption. }
    exists l'. split; [exact HE'|]. split; [eapply perm_in_trans; eassumption|exact Hs'].
Qed.

Lemma insertion_sort_ok guarded l b e : Permutation l0 l -> 0 <= b <= e -> e <= len l -> guard_ok guarded l b e ->
  exists l', insertion_sort comp guarded (full l) b e = Ok (full l') /\ perm_in b e l l' /\ srt l' b e.
Proof.
  intros HP Hb He Hg. unfold insertion_sort. destruct (Z.eqb_spec b e) as [->|N].
  - exists l. split; [reflexivity|]. split; [apply perm_in_refl; lia|]. intros i j Hi Hj; lia.
  - rewrite full_length. apply insertion_loop_ok; try assumption; try lia.
    + intros i j Hi Hj; lia.
    + unfold len in *. lia.
Qed.

Lemma partial_loop_ok fuel : forall l begin cur e limit, Permutation l0 l -> 0 <= begin < cur -> cur <= e -> e <= len l ->
  srt l begin cur -> e - cur <= Z.of_nat fuel ->
  exists l' r, partial_loop comp fuel (full l) begin cur e limit = Ok (full l', r) /\
    perm_in begin e l l' /\ (r = true -> srt l' begin e).
Proof.
  induction fuel as [|fuel IH]; intros l begin cur e limit HP Hb Hc He Hs Hf; cbn [partial_loop].
  - destruct (Z.eqb_spec cur e) as [->|N]; [|lia]. exists l, true. split; [reflexivity|]. split; [apply perm_in_refl; lia|auto].
  - destruct (Z.eqb_spec cur e) as [->|N].
    { exists l, true. split; [reflexivity|]. split; [apply perm_in_refl; lia|auto]. }
    destruct (insert_one_ok true l begin cur e) as (l1 & s & HE & HP1 & _ & Hs1); try assumption; try lia; [left; reflexivity|].
    rewrite HE. cbn [bind fst snd].
    pose proof (perm_in_len _ _ _ _ HP1) as HL.
    assert (HP1e : perm_in begin e l l1) by (eapply perm_in_widen; [exact HP1|lia|lia]).
    destruct (_ >? _).
    { exists l1, false. split; [reflexivity|]. split; [exact HP1e|discriminate]. }
    destruct (IH l1 begin (cur + 1) e (limit + (cur - s))) as (l' & r & HE' & HP' & Hs'); try assumption; try lia.
    { eapply perm0; eassumption. }
    exists l', r. split; [exact HE'|]. split; [eapply perm_in_trans; eassumption|exact Hs'].
Qed.

Lemma partial_ok l b e : Permutation l0 l -> 0 <= b <= e -> e <= len l ->
  exists l' r, partial_insertion_sort comp (full l) b e = Ok (full l', r) /\ perm_in b e l l' /\ (r = true -> srt l' b e).
Proof.
  intros HP Hb He. unfold partial_insertion_sort. destruct (Z.eqb_spec b e) as [->|N].
  - exists l, true. split; [reflexivity|]. split; [apply perm_in_refl; lia|]. intros _ i j Hi Hj; lia.
  - rewrite full_length. apply partial_loop_ok; try assumption; try lia.
    + intros i j Hi Hj; lia.
    + unfold len in *. lia.
Qed.

Lemma sorted_srt p m s : sorted lt m -> srt (p ++ m ++ s) (len p) (len p + len m).
Proof.
  intros H i j Hi Hj. unfold at_, len in *. do 2 (rewrite app_nth2 by lia; rewrite app_nth1 by lia).
  set (u := (Z.to_nat i - length p)%nat). set (v := (Z.to_nat j - length p)%nat).
  assert (u < v < length m)%nat by (unfold u, v; lia). clearbody u v. clear Hi Hj.
  pose proof (split_nth m u ltac:(lia)) as E1.
  assert (E2 : nth v m d = nth (v - S u) (skipn (S u) m) d).
  { rewrite nth_skipn. f_equal. lia. }
  set (w := (v - S u)%nat) in *. set (q := skipn (S u) m) in *.
  assert (Hw : (w < length q)%nat) by (unfold q, w; rewrite skipn_length; lia).
  pose proof (split_nth q w Hw) as E3.
  rewrite E3 in E1. unfold le. rewrite E2. exact (H _ _ _ _ _ E1).
Qed.

Lemma heap_sort_range_ok l b e : Permutation l0 l -> 0 <= b <= e -> e <= len l ->
  exists l', heap_sort_range hs (full l) b e = Ok (full l') /\ perm_in b e l l' /\ srt l' b e.
Proof.
  intros HP Hb He. unfold heap_sort_range.
  set (p := firstn (Z.to_nat b) l). set (m := firstn (Z.to_nat (e - b)) (skipn (Z.to_nat b) l)).
  set (s := skipn (Z.to_nat (e - b)) (skipn (Z.to_nat b) l)).
  assert (E : l = p ++ m ++ s) by (unfold p, m, s; rewrite !firstn_skipn; reflexivity).
  assert (Lp : len p = b) by (unfold p, len in *; rewrite firstn_length; lia).
  assert (Lm : len m = e - b) by (unfold m, len in *; rewrite firstn_length, skipn_length; lia).
  clearbody p m s. subst l.
  replace (Z.to_nat (e - b)) with (length m) by (unfold len in Lm; lia).
  pose proof (get_range_full p m s) as GR. rewrite Lp in GR. rewrite GR. cbn [bind].
  destruct (HS m (p ++ s)) as [Pm Sm]. { rewrite HP. apply Permutation_app_swap_app. }
  pose proof (put_range_full (hs m) p m s (Permutation_length Pm)) as PR. rewrite Lp in PR. rewrite PR.
  exists (p ++ hs m ++ s). split; [reflexivity|].
  assert (Lh : len (hs m) = len m) by (unfold len; rewrite (Permutation_length Pm); reflexivity).
  split.
  - split; [lia|]. split; [exact He|]. split; [apply Permutation_app_head, Permutation_app_tail; exact Pm|]. unfold len in *. split.
    + rewrite !firstn_app. replace (Z.to_nat b - length p)%nat with 0%nat by lia. reflexivity.
    + rewrite !skipn_app. rewrite (skipn_all2 p), (skipn_all2 m), (skipn_all2 (hs m)) by lia. rewrite !app_nil_l. f_equal. lia.
  - pose proof (sorted_srt p (hs m) s Sm) as G. rewrite Lp in G. replace (b + len (hs m)) with e in G by lia. exact G.
Qed.

Lemma srt_join l b e pos p : right_post l b e pos p -> srt l b pos -> srt l (pos + 1) e -> srt l b e.
Proof.
  intros (H1 & H2 & H3 & H4) S1 S2 i j Hi Hj.
  destruct (Z_lt_ge_dec j pos); [apply S1; lia|]. destruct (Z_lt_ge_dec pos i); [apply S2; lia|].
  assert (A : le (l@i) p). { destruct (Z.eq_dec i pos) as [->|]; [rewrite H2; apply le_refl|]. apply lt_asym, H3; lia. }
  assert (B : le p (l@j)). { destruct (Z.eq_dec j pos) as [->|]; [rewrite H2; apply le_refl|]. apply H4; lia. }
  eapply le_trans; eassumption.
Qed.
Lemma srt_perm_out l l' b e b' e' : 0 <= b -> perm_in b' e' l l' -> (e <= b' \/ e' <= b) -> srt l b e -> srt l' b e.
Proof.
  intros Hb HP Ho S i j Hi Hj. rewrite !(perm_in_at d _ _ _ _ _ HP) by lia. apply S; lia.
Qed.

Lemma pdqsort_loop_ok branchless : forall fuel l b e bad leftmost, Permutation l0 l -> 0 <= b <= e -> e <= len l ->
  e - b < Z.of_nat fuel -> guard_ok leftmost l b e ->
  exists l', pdqsort_loop comp hs fuel branchless (full l) b e bad leftmost = Ok (full l') /\ perm_in b e l l' /\ srt l' b e.
Proof.
  induction fuel as [|fuel IH]; intros l b e bad leftmost HP Hb He Hfu Hg; [lia|].
  cbn [pdqsort_loop]. change insertion_sort_threshold with 24.
  destruct (Z.ltb_spec (e - b) 24) as [Hsz|Hsz].
  { apply insertion_sort_ok; assumption. }
  destruct (choose_pivot_ok l b e HP (proj1 Hb) He Hsz) as (l1 & -> & P1 & Med). cbn [bind].
  pose proof (perm_in_len _ _ _ _ P1) as L1. pose proof (perm0 _ _ _ _ HP P1) as HP1.
  pose proof (guard_ok_perm _ _ _ _ _ Hg P1) as Hg1.
  assert (SM : exists same, (if leftmost then Ok false else
       let! x := get (full l1) (b - 1) in let! y := get (full l1) b in Ok (negb (comp x y))) = Ok same /\
     (same = true -> leftmost = false /\ 1 <= b /\ le (l1@b) (l1@(b - 1)))).
  { destruct leftmost; [exists false; split; [reflexivity|discriminate]|].
    destruct Hg1 as [Hg1|[Hg1 Hg2]]; [discriminate|].
    rewrite !(get_full d) by (unfold inr; lia). cbn [bind].
    eexists. split; [reflexivity|]. intros E. split; [reflexivity|]. split; [lia|].
    apply negb_true_iff in E. rewrite AG in E; [exact E|exact HP1| | |]; unfold inr; lia. }
  destruct SM as (same & -> & Hsame). cbn [bind]. destruct same.
  - (* many equal elements *)
    destruct (Hsame eq_refl) as (-> & Hb1 & Heq). clear Hsame.
    destruct Hg1 as [Hg1|[_ Hg1]]; [discriminate|].
    destruct (partition_left_ok l1 b e HP1 (proj1 Hb) ltac:(lia) (proj2 Med)) as (l2 & pos & -> & P2 & Hpos & E2 & Lo & Hi_).
    cbn [bind fst snd]. pose proof (perm_in_len _ _ _ _ P2) as L2. pose proof (perm0 _ _ _ _ HP1 P2) as HP2.
    assert (Hpm : l2@(b - 1) = l1@(b - 1)) by (apply (perm_in_at d _ _ _ _ (b - 1) P2); lia).
    assert (Hg2 : forall i, b <= i < e -> le (l2@(b - 1)) (l2@i)).
    { rewrite Hpm. apply (perm_in_forall d b e l1 l2 (fun x => le (l1@(b - 1)) x) P2 Hg1). }
    assert (Hpp : forall i, b <= i <= pos -> le (l2@i) (l2@pos)).
    { intros i Hi. destruct (Z.eq_dec i pos) as [->|]; [apply le_refl|]. rewrite E2. apply Lo; lia. }
    destruct (IH l2 (pos + 1) e bad false) as (l3 & -> & P3 & S3); try assumption; try lia.
    { right. split; [lia|]. intros i Hi. replace (pos + 1 - 1) with pos by lia. rewrite E2. apply lt_asym. apply Hi_; lia. }
    exists l3. split; [reflexivity|]. pose proof (perm_in_len _ _ _ _ P3) as L3.
    assert (P12 : perm_in b e l l2) by (eapply perm_in_trans; eassumption).
    split; [eapply perm_in_trans; [exact P12|eapply perm_in_widen; [exact P3|lia|lia]]|].
    intros i j Hi Hj.
    destruct (Z_lt_ge_dec pos i); [apply S3; lia|].
    rewrite (perm_in_at d _ _ _ _ i P3) by lia.
    destruct (Z_lt_ge_dec pos j).
    + (* right part is larger *)
      assert (A : le (l2@i) (l1@b)) by (rewrite <- E2; apply Hpp; lia).
      assert (B : slt (l1@b) (l3@j)) by (apply (perm_in_forall d (pos + 1) e l2 l3 (fun x => slt (l1@b) x) P3); [intros k Hk; apply Hi_; lia|lia]).
      eapply le_trans; [exact A|]. apply lt_asym. exact B.
    + rewrite (perm_in_at d _ _ _ _ j P3) by lia.
      assert (A : le (l2@i) (l1@b)) by (rewrite <- E2; apply Hpp; lia).
      eapply le_trans; [exact A|]. eapply le_trans; [exact Heq|]. rewrite <- Hpm. apply Hg2; lia.
  - clear Hsame.
    assert (PR : exists l2 pos fl, (if branchless then partition_right_branchless comp (full l1) b e else partition_right comp (full l1) b e) = Ok (full l2, pos, fl) /\
      perm_in b e l1 l2 /\ right_post l2 b e pos (l1@b)).
    { destruct branchless; [apply partition_right_branchless_ok|apply partition_right_ok]; try assumption; try lia; apply Med. }
    destruct PR as (l2 & pos & fl & -> & P2 & R2). cbn [bind].
    pose proof (perm_in_len _ _ _ _ P2) as L2. pose proof (perm0 _ _ _ _ HP1 P2) as HP2.
    assert (P12 : perm_in b e l l2) by (eapply perm_in_trans; eassumption).
    pose proof (guard_ok_perm _ _ _ _ _ Hg1 P2) as Hg2. pose proof (proj1 R2) as Hpos.
    set (hu := (pos - b <? Z.quot (e - b) 8) || (e - (pos + 1) <? Z.quot (e - b) 8)). clearbody hu.
    destruct (hu && (bad - 1 =? 0)).
    { destruct (heap_sort_range_ok l2 b e HP2 Hb ltac:(lia)) as (l3 & -> & P3 & S3). exists l3. split; [reflexivity|].
      split; [eapply perm_in_trans; eassumption|exact S3]. }
    assert (MID : exists l3 dn, (if hu then let! a := shuffle (full l2) b pos e in Ok (a, false)
       else if fl then let! r := partial_insertion_sort comp (full l2) b pos in
              if snd r then partial_insertion_sort comp (fst r) (pos + 1) e else Ok r
            else Ok (full l2, false)) = Ok (full l3, dn) /\
       perm_in b e l l3 /\ right_post l3 b e pos (l1@b) /\ (dn = true -> srt l3 b e)).
    { destruct hu.
      - destruct (shuffle_ok l2 b pos e ltac:(lia) ltac:(lia)) as (l3 & -> & l3' & Pa & Pb). cbn [bind].
        destruct (two_sides l2 b e pos (l1@b) l3' l3) as [Pc Rc]; try assumption; try lia.
        exists l3, false. split; [reflexivity|]. split; [eapply perm_in_trans; eassumption|]. split; [exact Rc|discriminate].
      - destruct fl.
        2:{ exists l2, false. split; [reflexivity|]. split; [exact P12|]. split; [exact R2|discriminate]. }
        destruct (partial_ok l2 b pos HP2 ltac:(lia) ltac:(lia)) as (l3 & r1 & -> & Pa & Sa). cbn [bind fst snd].
        pose proof (perm_in_len _ _ _ _ Pa) as L3. destruct r1.
        + destruct (partial_ok l3 (pos + 1) e (perm0 _ _ _ _ HP2 Pa) ltac:(lia) ltac:(lia)) as (l4 & r2 & -> & Pb & Sb).
          destruct (two_sides l2 b e pos (l1@b) l3 l4) as [Pc Rc]; try assumption; try lia.
          exists l4, r2. split; [reflexivity|]. split; [eapply perm_in_trans; eassumption|]. split; [exact Rc|].
          intros ->. eapply srt_join; [exact Rc| |apply Sb; reflexivity].
          eapply srt_perm_out; [lia|exact Pb|lia|apply Sa; reflexivity].
        + destruct (two_sides l2 b e pos (l1@b) l3 l3) as [Pc Rc]; try assumption; try lia; [apply perm_in_refl; lia|].
          exists l3, false. split; [reflexivity|]. split; [eapply perm_in_trans; eassumption|]. split; [exact Rc|discriminate]. }
    destruct MID as (l3 & dn & -> & P3 & R3 & D3). cbn [bind]. destruct dn.
    { exists l3. split; [reflexivity|]. split; [exact P3|apply D3; reflexivity]. }
    clear D3. pose proof (perm_in_len _ _ _ _ P3) as L3. pose proof (perm0 _ _ _ _ HP P3) as HP3.
    assert (Hg3 : guard_ok leftmost l3 b pos).
    { destruct (guard_ok_perm _ _ _ _ _ Hg P3) as [G|[G1 G2]]; [left; exact G|right; split; [exact G1|intros; apply G2; lia]]. }
    destruct (IH l3 b pos (if hu then bad - 1 else bad) leftmost) as (l4 & -> & P4 & S4); try assumption; try lia.
    cbn [bind]. pose proof (perm_in_len _ _ _ _ P4) as L4.
    pose proof (perm_in_sub_left b e l3 l4 pos (l1@b) P4 ltac:(lia) R3) as R4.
    destruct (IH l4 (pos + 1) e (if hu then bad - 1 else bad) false) as (l5 & -> & P5 & S5); try lia.
    { exact (perm0 _ _ _ _ HP3 P4). }
    { right. split; [lia|]. intros i Hi. replace (pos + 1 - 1) with pos by lia.
      destruct R4 as (_ & R42 & _ & R44). rewrite R42. apply R44; lia. }
    exists l5. split; [reflexivity|].
    destruct (two_sides l3 b e pos (l1@b) l4 l5) as [Pc Rc]; try assumption; try lia.
    split; [eapply perm_in_trans; eassumption|].
    eapply srt_join; [exact Rc| |exact S5]. eapply srt_perm_out; [lia|exact P5|lia|exact S4].
Qed.

Lemma srt_sorted l : srt l 0 (len l) -> sorted lt l.
Proof.
  intros H p x q y r E. specialize (H (len p) (len p + 1 + len q)).
  assert (A : l@(len p) = x). { rewrite E. unfold at_, len. rewrite app_nth2 by lia. replace (Z.to_nat _ - _)%nat with 0%nat by lia. reflexivity. }
  assert (B : l@(len p + 1 + len q) = y).
  { rewrite E. unfold at_, len. rewrite app_nth2 by lia. replace (Z.to_nat _ - _)%nat with (S (length q)) by lia. cbn [nth].
    rewrite app_nth2 by lia. rewrite Nat.sub_diag. reflexivity. }
  rewrite A, B in H. apply H; rewrite ?E; unfold len; rewrite ?app_length; cbn; rewrite ?app_length; cbn; lia.
Qed.

Lemma pdqsort_ok branchless l : Permutation l0 l ->
  exists l', pdqsort comp hs branchless (full l) = Ok (full l') /\ Permutation l l' /\ sorted lt l'.
Proof.
  intros HP. unfold pdqsort. rewrite full_len, full_length.
  destruct (Z.eqb_spec (len l) 0) as [E|E].
  - exists l. split; [reflexivity|]. split; [reflexivity|].
    destruct l; [|cbn in E; unfold len in E; cbn in E; lia]. intros p x q y r H. destruct p; discriminate.
  - destruct (pdqsort_loop_ok branchless (S (length l)) l 0 (len l) (log2 (len l)) true) as (l' & HE & P' & S'); try assumption.
    + unfold len; lia.
    + lia.
    + unfold len; lia.
    + left; reflexivity.
    + exists l'. split; [exact HE|]. split; [eapply perm_in_perm; exact P'|].
      apply srt_sorted. rewrite (perm_in_len _ _ _ _ P'). exact S'.
Qed.
End Order.
End Algo.

(** ** A comparator that is only weak (greater-or-equal): short lists *)
Section Weak.
Context {T : Type}.
Variable d : T.
Variable gt : T -> T -> bool.
Hypothesis SWO : strict_weak_order gt.
Variable comp : T -> T -> bool.
Hypothesis CW : forall x y, comp x y = negb (gt y x).
Notation "l @ i" := (at_ d l i) (at level 9, format "l @ i").
Notation le := (le gt).
Notation srt := (srt d gt).

Lemma weak_true x y : comp x y = true -> le x y.
Proof. rewrite CW. apply negb_true_iff. Qed.
Lemma weak_false x y : comp x y = false -> le y x.
Proof.
  rewrite CW. intros H. apply negb_false_iff in H. unfold le.
  destruct (gt x y) eqn:E; [|reflexivity]. pose proof (swo_trans _ SWO _ _ _ H E). pose proof (swo_irrefl _ SWO y). congruence.
Qed.

Lemma wsift_loop_ok fuel : forall l begin s cur,
  0 <= begin -> begin < s <= cur -> cur < len l -> s - begin < Z.of_nat fuel ->
  le (l@s) (l@(s - 1)) ->
  (forall i j, begin <= i < j -> j <= cur -> j <> s -> le (l@i) (l@j)) ->
  exists l' s', sift_loop comp fuel true (hole l s) begin s (l@s) = Ok (hole l' s', s') /\
    perm_in begin (cur + 1) l l' /\ begin <= s' <= cur /\ l'@s' = l@s /\ srt l' begin (cur + 1).
Proof.
  induction fuel as [|fuel IH]; intros l begin s cur Hb Hs Hc Hf Hlt Inv; [lia|].
  cbn [sift_loop]. rewrite (move_hole d) by atlia. cbn [bind].
  set (l1 := swp d l s (s - 1)).
  assert (HL : len l1 = len l) by apply len_swp.
  assert (HP1 : perm_in begin (cur + 1) l l1) by (apply perm_in_swp; lia).
  assert (Hat : l1@(s - 1) = l@s) by (unfold l1; swp_cases; reflexivity).
  assert (Inv1 : forall i j, begin <= i < j -> j <= cur -> j <> s - 1 -> le (l1@i) (l1@j)).
  { intros i j Hi Hj Hjs. unfold l1. swp_cases; try subst; try (apply Inv; lia). assumption. }
  assert (Stop : (s - 1 = begin \/ le (l1@(s - 2)) (l1@(s - 1))) -> srt l1 begin (cur + 1)).
  { intros HS0 i j Hi Hj. destruct (Z.eq_dec j (s - 1)) as [->|N]; [|apply Inv1; lia].
    destruct HS0 as [E|HS0]; [lia|]. destruct (Z.eq_dec i (s - 2)) as [->|Ni]; [exact HS0|].
    eapply (le_trans gt SWO); [|exact HS0]. apply Inv1; lia. }
  destruct (true && (s - 1 =? begin)) eqn:Eg.
  { exists l1, (s - 1). split; [reflexivity|]. split; [exact HP1|]. split; [lia|]. split; [exact Hat|]. apply Stop. cbn in Eg. lia. }
  cbn in Eg. assert (Hlow : begin <= s - 2) by lia.
  replace (s - 1 - 1) with (s - 2) by lia.
  rewrite (get_hole d) by (unfold inr; try rewrite HL; lia). cbn [bind].
  destruct (comp l@s l1@(s - 2)) eqn:Ec.
  - destruct (IH l1 begin (s - 1) cur) as (l' & s' & HE & HP' & Hs' & Hat' & Hsrt); try assumption; try lia.
    { replace (s - 1 - 1) with (s - 2) by lia. rewrite Hat. apply weak_true. exact Ec. }
    rewrite Hat in HE. exists l', s'. split; [exact HE|]. split; [eapply perm_in_trans; eassumption|].
    split; [lia|]. split; [congruence|exact Hsrt].
  - exists l1, (s - 1). split; [reflexivity|]. split; [exact HP1|]. split; [lia|]. split; [exact Hat|].
    apply Stop. right. rewrite Hat. apply weak_false. exact Ec.
Qed.

Lemma winsert_one_ok l begin cur : 0 <= begin < cur -> cur < len l -> srt l begin cur ->
  exists l' s', insert_one comp true (full l) begin cur = Ok (full l', s') /\
    perm_in begin (cur + 1) l l' /\ srt l' begin (cur + 1).
Proof.
  intros Hb Hc Hs. unfold insert_one.
  rewrite !(get_full d) by atlia. cbn [bind].
  destruct (comp l@cur l@(cur - 1)) eqn:Ec.
  - rewrite (take_full d) by atlia. cbn [bind]. rewrite hole_length.
    destruct (wsift_loop_ok (S (length l)) l begin cur cur) as (l' & s' & HE & HP' & Hs' & Hat & Hsrt); try assumption; try lia.
    { unfold len in *. lia. }
    { apply weak_true. exact Ec. }
    { intros i j Hi Hj Hn. apply Hs; lia. }
    rewrite HE. cbn [bind]. rewrite <- Hat.
    pose proof (perm_in_len _ _ _ _ HP') as HL.
    rewrite (put_hole d) by (unfold inr; lia). cbn [bind]. eauto 10.
  - apply weak_false in Ec. exists l, cur. split; [reflexivity|]. split; [apply perm_in_refl; lia|].
    intros i j Hi Hj. destruct (Z.eq_dec j cur) as [->|N]; [|apply Hs; lia].
    destruct (Z.eq_dec i (cur - 1)) as [->|Ni]; [exact Ec|].
    eapply (le_trans gt SWO); [|exact Ec]. apply Hs; lia.
Qed.

Lemma winsertion_loop_ok fuel : forall l begin cur e, 0 <= begin < cur -> cur <= e -> e <= len l ->
  srt l begin cur -> e - cur <= Z.of_nat fuel ->
  exists l', insertion_loop comp fuel true (full l) begin cur e = Ok (full l') /\
    perm_in begin e l l' /\ srt l' begin e.
Proof.
  induction fuel as [|fuel IH]; intros l begin cur e Hb Hc He Hs Hf; cbn [insertion_loop].
  - destruct (Z.eqb_spec cur e) as [->|N]; [|lia]. exists l. split; [reflexivity|]. split; [apply perm_in_refl; lia|exact Hs].
  - destruct (Z.eqb_spec cur e) as [->|N].
    { exists l. split; [reflexivity|]. split; [apply perm_in_refl; lia|exact Hs]. }
    destruct (winsert_one_ok l begin cur) as (l1 & s & HE & HP1 & Hs1); try assumption; try lia.
    rewrite HE. cbn [bind fst].
    pose proof (perm_in_len _ _ _ _ HP1) as HL.
    assert (HP1e : perm_in begin e l l1) by (eapply perm_in_widen; [exact HP1|lia|lia]).
    destruct (IH l1 begin (cur + 1) e) as (l' & HE' & HP' & Hs'); try assumption; try lia.
    exists l'. split; [exact HE'|]. split; [eapply perm_in_trans; eassumption|exact Hs'].
Qed.

Lemma wsrt_sorted l : srt l 0 (len l) -> sorted gt l.
Proof.
  intros H p x q y r E. specialize (H (len p) (len p + 1 + len q)).
  assert (A : l@(len p) = x). { rewrite E. unfold at_, len. rewrite app_nth2 by lia. replace (Z.to_nat _ - _)%nat with 0%nat by lia. reflexivity. }
  assert (B : l@(len p + 1 + len q) = y).
  { rewrite E. unfold at_, len. rewrite app_nth2 by lia. replace (Z.to_nat _ - _)%nat with (S (length q)) by lia. cbn [nth].
    rewrite app_nth2 by lia. rewrite Nat.sub_diag. reflexivity. }
  rewrite A, B in H. apply H; rewrite ?E; unfold len; rewrite ?app_length; cbn; rewrite ?app_length; cbn; lia.
Qed.

Lemma wpdqsort_short hs br l : len l < 24 ->
  exists l', pdqsort comp hs br (full l) = Ok (full l') /\ Permutation l l' /\ sorted gt l'.
Proof.
  intros Hl. unfold pdqsort. rewrite full_len, full_length.
  destruct (Z.eqb_spec (len l) 0) as [E|E].
  - exists l. split; [reflexivity|]. split; [reflexivity|].
    destruct l; [|unfold len in E; cbn in E; lia]. intros p x q y r H. destruct p; discriminate.
  - cbn [pdqsort_loop]. change insertion_sort_threshold with 24. destruct (Z.ltb_spec (len l - 0) 24); [|lia].
    unfold insertion_sort. destruct (Z.eqb_spec 0 (len l)); [lia|]. rewrite full_length.
    destruct (winsertion_loop_ok (length l) l 0 (0 + 1) (len l)) as (l' & HE & P' & S'); try lia.
    + unfold len in *; lia.
    + intros i j Hi Hj; lia.
    + unfold len; lia.
    + exists l'. split; [exact HE|]. split; [eapply perm_in_perm; exact P'|].
      apply wsrt_sorted. rewrite (perm_in_len _ _ _ _ P'). exact S'.
Qed.
End Weak.

(** ** A comparator that holds between all the elements: the first scan leaves the list *)
Section Reflexive.
Context {T : Type}.
Variable d : T.
Variable comp : T -> T -> bool.
Variable l0 : list T.
Hypothesis ALL : forall x y, In x l0 -> In y l0 -> comp x y = true.
Notation "l @ i" := (at_ d l i) (at level 9, format "l @ i").

Lemma at_in l i : Permutation l0 l -> inr l i -> In (l@i) l0.
Proof.
  intros HP Hi. apply (Permutation_in _ (Permutation_sym HP)). unfold at_. apply nth_In. unfold inr, len in Hi. lia.
Qed.
Lemma rsort2 l i j : Permutation l0 l -> inr l i -> inr l j ->
  exists l', sort2 comp (full l) i j = Ok (full l') /\ Permutation l0 l' /\ len l' = len l.
Proof.
  intros HP Hi Hj. unfold sort2. rewrite !(get_full d) by assumption. cbn [bind].
  rewrite ALL by (apply at_in; assumption). rewrite (swap_full d) by assumption.
  eexists. split; [reflexivity|]. split; [|apply len_swp]. rewrite HP. apply swp_perm; assumption.
Qed.
Lemma rsort3 l i j k : Permutation l0 l -> inr l i -> inr l j -> inr l k ->
  exists l', sort3 comp (full l) i j k = Ok (full l') /\ Permutation l0 l' /\ len l' = len l.
Proof.
  intros HP Hi Hj Hk. unfold sort3, inr in *.
  destruct (rsort2 l i j) as (l1 & -> & P1 & L1); try assumption. cbn [bind].
  destruct (rsort2 l1 j k) as (l2 & -> & P2 & L2); try (unfold inr; lia || assumption). cbn [bind].
  destruct (rsort2 l2 i j) as (l3 & -> & P3 & L3); try (unfold inr; lia || assumption).
  exists l3. repeat split; try assumption; lia.
Qed.
Lemma rchoose_pivot l : Permutation l0 l -> 24 <= len l ->
  exists l', choose_pivot comp (full l) 0 (len l) = Ok (full l') /\ Permutation l0 l' /\ len l' = len l.
Proof.
  intros HP Hsz. unfold choose_pivot, ninther_threshold. rewrite Z.gtb_ltb. rewrite Z.sub_0_r.
  rewrite (Z.quot_div_nonneg (len l) 2) by lia. set (s2 := len l / 2). assert (Hs2 : 2 * s2 <= len l <= 2 * s2 + 1) by (unfold s2; lia).
  clearbody s2.
  destruct (Z.ltb_spec 128 (len l)) as [Hn|Hn].
  - destruct (rsort3 l 0 (0 + s2) (len l - 1)) as (l1 & -> & P1 & L1); try (unfold inr; lia || assumption). cbn [bind].
    destruct (rsort3 l1 (0 + 1) (0 + (s2 - 1)) (len l - 2)) as (l2 & -> & P2 & L2); try (unfold inr; lia || assumption). cbn [bind].
    destruct (rsort3 l2 (0 + 2) (0 + (s2 + 1)) (len l - 3)) as (l3 & -> & P3 & L3); try (unfold inr; lia || assumption). cbn [bind].
    destruct (rsort3 l3 (0 + (s2 - 1)) (0 + s2) (0 + (s2 + 1))) as (l4 & -> & P4 & L4); try (unfold inr; lia || assumption). cbn [bind].
    rewrite (swap_full d) by (unfold inr; lia). eexists. split; [reflexivity|]. rewrite len_swp. split; [|lia].
    rewrite P4. apply swp_perm; unfold inr; lia.
  - destruct (rsort3 l (0 + s2) 0 (len l - 1)) as (l1 & -> & P1 & L1); try (unfold inr; lia || assumption).
    exists l1. auto.
Qed.
Lemma rscan_up l p : Permutation l0 l -> In p l0 -> inr l 0 -> forall fuel first, 0 <= first < len l -> len l - first <= Z.of_nat fuel ->
  scan_up fuel (fun x => comp x p) (hole l 0) first = OOB.
Proof.
  intros HP Hp Hh. induction fuel as [|fuel IH]; intros first Hf Hfu; [lia|]. cbn [scan_up].
  destruct (Z.eq_dec (first + 1) (len l)) as [E|N].
  - unfold get, cell, rdz, rd. destruct (Z.ltb_spec (first + 1) 0); [lia|].
    replace (nth_error (hole l 0) (Z.to_nat (first + 1))) with (@None (option T)); [reflexivity|].
    symmetry. apply nth_error_None. rewrite hole_length. unfold len in E. lia.
  - rewrite (get_hole d) by (unfold inr in *; lia). cbn [bind]. rewrite ALL by (assumption || (apply at_in; [assumption|unfold inr; lia])).
    apply IH; lia.
Qed.
Lemma rpdqsort hs : 24 <= len l0 -> pdqsort comp hs false (full l0) = OOB.
Proof.
  intros Hl. unfold pdqsort. rewrite full_len, full_length. destruct (Z.eqb_spec (len l0) 0); [lia|].
  cbn [pdqsort_loop]. change insertion_sort_threshold with 24. destruct (Z.ltb_spec (len l0 - 0) 24); [lia|].
  destruct (rchoose_pivot l0) as (l1 & -> & P1 & L1); [reflexivity|assumption|]. cbn [bind].
  unfold partition_right, partition_right_head. rewrite (take_full d) by (unfold inr; lia). cbn [bind].
  rewrite hole_length. rewrite rscan_up; [reflexivity|assumption|apply at_in; [assumption|unfold inr; lia]|unfold inr; lia|lia|unfold len; lia].
Qed.
End Reflexive.
