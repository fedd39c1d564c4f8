(** The hash table: its invariant, and that every operation keeps it. *)
From Coq Require Import Permutation.
From Verif Require Import Base ListAux HashModel HashArith.
Ltac Zify.zify_post_hook ::= Z.to_euclidean_division_equations.

(** ** Values of a list of entries *)
Definition oval {E} (e : ent E) : list E := match e_val e with Some x => [x] | None => [] end.
Definition evals {E} (l : list (ent E)) : list E := flat_map oval l.
Definition vals {E} (t : table E) : list E := evals (ents t).

Lemma evals_app {E} (a b : list (ent E)) : evals (a ++ b) = evals a ++ evals b.
Proof. apply flat_map_app. Qed.
Lemma evals_cons {E} (e : ent E) l : evals (e :: l) = oval e ++ evals l.
Proof. reflexivity. Qed.
Lemma evals_lset {E} (l : list (ent E)) n e e' : nth_error l n = Some e ->
  Permutation (oval e ++ evals (lset l n e')) (oval e' ++ evals l).
Proof.
  intros H. destruct (nth_split' _ _ _ H) as (a & b & -> & <-). rewrite lset_split.
  rewrite !evals_app, !evals_cons.
  rewrite Permutation_app_swap_app. symmetry. rewrite Permutation_app_swap_app.
  apply Permutation_app_head. apply Permutation_app_swap_app.
Qed.
Lemma evals_none {E} (l : list (ent E)) : (forall e, In e l -> e_val e = None) -> evals l = [].
Proof.
  induction l as [|e l IH]; intros H; [reflexivity|]. rewrite evals_cons, IH by (intros; apply H; right; assumption).
  unfold oval. rewrite H by (left; reflexivity). reflexivity.
Qed.

(** Reading by integer index *)
Definition at_ {E} (t : table E) (i : Z) : ent E := nth (Z.to_nat i) (ents t) end_ent.
Notation dist t i := (e_dist (at_ t i)).
Definition tlen {E} (t : table E) : Z := Z.of_nat (length (ents t)).

Lemma rdz_at {E} (t : table E) i : 0 <= i < tlen t -> rdz (ents t) i = Ok (at_ t i).
Proof.
  intros H. unfold rdz, tlen in *. destruct (Z.ltb_spec i 0); [lia|]. unfold rd, at_.
  rewrite (nth_error_nth' (ents t) end_ent) by lia. reflexivity.
Qed.
Lemma nth_at {E} (t : table E) i : 0 <= i < tlen t -> nth_error (ents t) (Z.to_nat i) = Some (at_ t i).
Proof. intros H. unfold tlen in H. apply nth_error_nth'. lia. Qed.
Lemma wr_ok {E} (t : table E) i e : 0 <= i < tlen t ->
  wr t i e = Ok (with_ents t (lset (ents t) (Z.to_nat i) e)).
Proof.
  intros H. unfold wr, tlen in *. destruct (Z.leb_spec 0 i), (Z.ltb_spec i (Z.of_nat (length (ents t)))); try lia. reflexivity.
Qed.
Definition upd {E} (t : table E) i e := with_ents t (lset (ents t) (Z.to_nat i) e).
Lemma at_upd {E} (t : table E) i j e : 0 <= i < tlen t -> 0 <= j ->
  at_ (upd t i e) j = if j =? i then e else at_ t j.
Proof.
  intros Hi Hj. unfold at_, upd, with_ents, tlen in *. cbn [ents].
  destruct (Z.eqb_spec j i) as [->|N].
  - apply nth_error_nth. apply nth_lset_eq. lia.
  - destruct (nth_error (ents t) (Z.to_nat j)) as [y|] eqn:Y.
    + rewrite (nth_error_nth _ _ _ Y). apply nth_error_nth. rewrite nth_lset_ne by lia. assumption.
    + apply nth_error_None in Y. rewrite !nth_overflow; [reflexivity|lia|rewrite lset_length; lia].
Qed.
Lemma vals_upd {E} (t : table E) i e : 0 <= i < tlen t ->
  Permutation (oval (at_ t i) ++ vals (upd t i e)) (oval e ++ vals t).
Proof. intros H. unfold vals, upd. cbn [ents with_ents]. apply evals_lset, nth_at, H. Qed.
Lemma in_vals {E} (t : table E) x : In x (vals t) <-> exists i, 0 <= i < tlen t /\ e_val (at_ t i) = Some x.
Proof.
  unfold vals, evals. rewrite in_flat_map. split.
  - intros (e & He & Hx). destruct (In_nth_error _ _ He) as (n & Hn).
    exists (Z.of_nat n). assert (n < length (ents t))%nat by (apply nth_error_Some; congruence).
    split; [unfold tlen; lia|]. unfold at_. rewrite Nat2Z.id. rewrite (nth_error_nth _ _ _ Hn).
    unfold oval in Hx. destruct (e_val e); [destruct Hx as [->|[]]; reflexivity|destruct Hx].
  - intros (i & Hi & Hv). exists (at_ t i). split; [|unfold oval; rewrite Hv; left; reflexivity].
    eapply nth_error_In. apply nth_at. assumption.
Qed.

(** ** The invariant *)
Section Inv.
Context {E K : Type}.
Variable kof : E -> K.
Variable hash : K -> Z.
Variable eqb : K -> K -> bool.
Variable cap : Z.

Notation hm := (home (E := E) hash).

(** No two values have equal keys. *)
Inductive kdistinct : list E -> Prop :=
| kd_nil : kdistinct []
| kd_cons x l : (forall y, In y l -> eqb (kof x) (kof y) = false) -> kdistinct l -> kdistinct (x :: l).

(** 2^b buckets *)
Definition geo (t : table E) (b : Z) : Prop :=
  1 <= b <= 51 /\ nsm1 t = 2 ^ b - 1 /\ shift t = 64 - b /\ maxl t = Z.max 4 b /\
  tlen t = 2 ^ b + Z.max 4 b.
(** An entry is free, or holds a value as far from its home as it says. *)
Definition slot (t : table E) (i : Z) : Prop :=
  (dist t i = -1 /\ e_val (at_ t i) = None) \/
  (0 <= dist t i < maxl t /\ exists x, e_val (at_ t i) = Some x /\ i - dist t i = hm t (kof x)).
Definition slots (t : table E) : Prop :=
  at_ t (tend t) = end_ent /\ forall i, 0 <= i < tend t -> slot t i.
(** Robin Hood order *)
Definition ordered (t : table E) : Prop :=
  dist t 0 <= 0 /\ forall i, 0 <= i < tend t -> dist t (i + 1) <= dist t i + 1.
Definition wfb (t : table E) (b : Z) : Prop :=
  geo t b /\ slots t /\ ordered t /\ kdistinct (vals t) /\ num t = Z.of_nat (length (vals t)) /\
  2 * num t <= 2 ^ b.
Definition wf (t : table E) : Prop := t = tempty \/ exists b, wfb t b.

(** After an insertion gave up: nothing is known but that values sit in entries that say so. *)
Definition loose (t : table E) : Prop :=
  at_ t (tend t) = end_ent /\ forall i, 0 <= i < tend t ->
    (dist t i < 0 /\ e_val (at_ t i) = None) \/ (0 <= dist t i /\ exists x, e_val (at_ t i) = Some x).

Definition symm : Prop := forall a b, eqb a b = eqb b a.
Definition hcong : Prop := forall a b, eqb a b = true -> hash a = hash b.

Lemma kdistinct_perm (eqb_sym : symm) l l' : Permutation l l' -> kdistinct l -> kdistinct l'.
Proof.
  intros PP. induction PP as [|x l l' P IH|x y l|]; intros H; auto.
  - inversion H as [|? ? H2 H3]; subst. constructor; [|auto]. intros z Hz. apply H2. apply Permutation_sym in P. eapply Permutation_in; eassumption.
  - inversion H as [|? ? H1 H2]; subst. inversion H2 as [|? ? H3 H4]; subst. constructor.
    + intros z [<-|Hz]; [rewrite eqb_sym; apply H1; left; reflexivity|apply H3, Hz].
    + constructor; [|assumption]. intros z Hz. apply H1. right. assumption.
Qed.

Lemma pow_pos b : 1 <= b -> 2 <= 2 ^ b.
Proof. intros H. change 2 with (2 ^ 1) at 1. apply Z.pow_le_mono_r; lia. Qed.

Lemma geo_facts t b : geo t b -> 2 <= 2 ^ b /\ tend t = 2 ^ b + maxl t - 1 /\ tlen t = tend t + 1 /\ 4 <= maxl t <= 51 /\ nsm1 t = 2 ^ b - 1.
Proof.
  intros (Hb & H1 & H2 & H3 & H4). pose proof (pow_pos b). unfold tend. lia.
Qed.
Lemma home_range t b k : geo t b -> 0 <= hm t k <= nsm1 t.
Proof.
  intros (Hb & H1 & H2 & H3 & H4). unfold home. rewrite H2. pose proof (index_range (hash k) b). lia.
Qed.

Lemma ordered_back t : ordered t -> forall i j, 0 <= i <= j -> j <= tend t -> dist t j - (j - i) <= dist t i.
Proof.
  intros (_ & H) i j Hij Hj. remember (Z.to_nat (j - i)) as n eqn:N. revert j Hij Hj N.
  induction n as [|n IH]; intros j Hij Hj N.
  - replace j with i by lia. lia.
  - specialize (IH (j - 1)). specialize (H (j - 1)). replace (j - 1 + 1) with j in H by lia. lia.
Qed.

(** ** Looking up *)
Lemma probe_ok t b k : geo t b -> slots t -> ordered t ->
  forall fuel i d, i - d = hm t k -> 0 <= d <= maxl t -> maxl t - d < Z.of_nat fuel ->
  (forall j x, hm t k <= j < i -> e_val (at_ t j) = Some x -> eqb k (kof x) = false) ->
  (forall j, hm t k <= j < i -> dist t j >= j - hm t k) ->
  match probe kof eqb fuel t k i d with
  | Ok (inl i') => 0 <= i' < tend t /\ exists x, e_val (at_ t i') = Some x /\ eqb k (kof x) = true
  | Ok (inr (i', d')) => i' - d' = hm t k /\ 0 <= d' <= maxl t /\ dist t i' < d' /\
      (forall j x, hm t k <= j < i' -> e_val (at_ t j) = Some x -> eqb k (kof x) = false) /\
      (forall j, hm t k <= j < i' -> dist t j >= j - hm t k)
  | _ => False
  end.
Proof.
  intros G (SE & SI) O. destruct (geo_facts t b G) as (G1 & G2 & G3 & G4 & G5). pose proof (home_range t b k G) as HR.
  induction fuel as [|fuel IH]; intros i d Hi Hd HF HV HD; [lia|]. cbn [probe].
  rewrite rdz_at by lia. cbn [bind].
  destruct (Z.geb_spec (dist t i) d) as [L|L].
  2:{ repeat split; auto; lia. }
  assert (Hti : i < tend t).
  { destruct (Z.eq_dec i (tend t)) as [->|]; [|lia]. rewrite SE in L. cbn in L. lia. }
  destruct (SI i ltac:(lia)) as [(S1 & S2)|(S1 & x & S2 & S3)]; [lia|]. rewrite S2.
  destruct (eqb k (kof x)) eqn:Q.
  - split; [lia|]. exists x. auto.
  - apply IH; try lia.
    + intros j y Hj Hy. destruct (Z.eq_dec j i) as [->|]; [congruence|apply (HV j); [lia|assumption]].
    + intros j Hj. destruct (Z.eq_dec j i) as [->|]; [lia|apply HD; lia].
Qed.


Lemma slot_val_lt t b : geo t b -> slots t -> forall i x, 0 <= i < tlen t -> e_val (at_ t i) = Some x ->
  0 <= i < tend t /\ 0 <= dist t i < maxl t /\ i - dist t i = hm t (kof x).
Proof.
  intros G (SE & SI) i x Hi Hx. destruct (geo_facts t b G) as (G1 & G2 & G3 & G4 & G5).
  destruct (Z.eq_dec i (tend t)) as [->|N]; [rewrite SE in Hx; discriminate Hx|].
  destruct (SI i ltac:(lia)) as [(S1 & S2)|(S1 & y & S2 & S3)]; [congruence|].
  assert (y = x) by congruence. subst y. split; [lia|]. split; [lia|assumption].
Qed.

Definition run (t : table E) (k : K) (i d : Z) : Prop :=
  i - d = hm t k /\ 0 <= d <= maxl t /\ (forall j, hm t k <= j < i -> dist t j >= j - hm t k).

Lemma lookup_ok (hash_eq : hcong) t b k : geo t b -> slots t -> ordered t ->
  match lookup kof hash eqb t k with
  | Ok (inl i) => 0 <= i < tend t /\ exists x, e_val (at_ t i) = Some x /\ eqb k (kof x) = true
  | Ok (inr (i, d)) => run t k i d /\ dist t i < d /\ (forall x, In x (vals t) -> eqb k (kof x) = false)
  | _ => False
  end.
Proof.
  intros G S O. unfold lookup. destruct (geo_facts t b G) as (G1 & G2 & G3 & G4 & G5).
  pose proof (home_range t b k G) as HR.
  assert (P := probe_ok t b k G S O (Datatypes.S (length (ents t))) (hm t k) 0).
  unfold tlen in G3. specialize (P ltac:(lia) ltac:(lia) ltac:(lia) ltac:(intros; lia) ltac:(intros; lia)).
  destruct (probe kof eqb (Datatypes.S (length (ents t))) t k (hm t k) 0) as [[i|(i, d)]| | |]; try contradiction; [exact P|].
  destruct P as (P1 & P2 & P3 & P4 & P5). split; [split; [assumption|split; assumption]|]. split; [assumption|].
  intros x Hx. apply in_vals in Hx. destruct Hx as (j & Hj & Hv).
  destruct (slot_val_lt t b G S j x Hj Hv) as (J1 & J2 & J3).
  destruct (eqb k (kof x)) eqn:Q; [|reflexivity]. exfalso.
  assert (HH : hm t (kof x) = hm t k) by (unfold home; rewrite (hash_eq _ _ Q); reflexivity).
  destruct (Z_lt_ge_dec j i) as [L|L].
  - rewrite (P4 j x) in Q by (assumption || lia). discriminate Q.
  - pose proof (ordered_back t O i j). lia.
Qed.

(** A run of entries all of which are in use: there are that many values. *)
Lemma used_count (l : list (ent E)) : forall n m, (n + m <= length l)%nat ->
  (forall j, (n <= j < n + m)%nat -> exists x, e_val (nth j l end_ent) = Some x) ->
  (m <= length (evals l))%nat.
Proof.
  induction l as [|e l IH]; intros n m HL HU; cbn [length] in HL.
  - cbn. lia.
  - rewrite evals_cons, app_length. destruct n as [|n].
    + destruct m as [|m]; [lia|]. destruct (HU 0%nat ltac:(lia)) as (x & Hx). cbn [nth] in Hx.
      unfold oval. rewrite Hx. cbn [length]. specialize (IH 0%nat m ltac:(lia)).
      assert (m <= length (evals l))%nat; [|lia]. apply IH. intros j Hj. apply (HU (S j)). lia.
    + specialize (IH n m ltac:(lia)). assert (m <= length (evals l))%nat; [|lia].
      apply IH. intros j Hj. apply (HU (S j)). lia.
Qed.
Lemma used_run t b i d : geo t b -> slots t -> 0 <= d -> 0 <= i - d -> i <= tend t ->
  (forall j, i - d <= j < i -> 0 <= dist t j) -> d <= Z.of_nat (length (vals t)).
Proof.
  intros G (SE & SI) Hd Hi Ht HU. destruct (geo_facts t b G) as (G1 & G2 & G3 & G4 & G5).
  unfold tlen in G3. enough (Z.to_nat d <= length (vals t))%nat by lia.
  apply (used_count (ents t) (Z.to_nat (i - d)) (Z.to_nat d)); [lia|].
  intros j Hj. specialize (HU (Z.of_nat j) ltac:(lia)). specialize (SI (Z.of_nat j) ltac:(lia)).
  unfold slot, at_ in *. rewrite Nat2Z.id in *. destruct SI as [(S1 & S2)|(S1 & x & S2 & S3)]; [lia|eauto].
Qed.

(** ** Placing an element *)
Definition sameg (t t' : table E) : Prop :=
  nsm1 t' = nsm1 t /\ shift t' = shift t /\ maxl t' = maxl t /\ tlen t' = tlen t.
Lemma sameg_upd t i e : sameg t (upd t i e).
Proof. unfold sameg, upd, tlen. cbn. rewrite lset_length. auto. Qed.
Lemma sameg_refl t : sameg t t.
Proof. unfold sameg. auto. Qed.
Lemma sameg_trans t t' t'' : sameg t t' -> sameg t' t'' -> sameg t t''.
Proof. unfold sameg. intuition congruence. Qed.
Lemma sameg_geo t t' b : sameg t t' -> geo t b -> geo t' b.
Proof. unfold sameg, geo. intros (A & B & C & D) H. rewrite A, B, C, D. exact H. Qed.
Lemma sameg_home t t' k : sameg t t' -> hm t' k = hm t k.
Proof. unfold home. intros (A & B & C & D). rewrite B. reflexivity. Qed.
Lemma sameg_tend t t' : sameg t t' -> tend t' = tend t.
Proof. unfold tend. intros (A & B & C & D). rewrite A, C. reflexivity. Qed.

Lemma slots_upd t b i d x : geo t b -> slots t -> 0 <= i < tend t -> 0 <= d < maxl t -> i - d = hm t (kof x) ->
  slots (upd t i {| e_dist := d; e_val := Some x |}).
Proof.
  intros G (SE & SI) Hi Hd Hh. destruct (geo_facts t b G) as (G1 & G2 & G3 & G4 & G5).
  set (e := {| e_dist := d; e_val := Some x |}). pose proof (sameg_upd t i e) as SG.
  unfold slots, slot. rewrite (sameg_tend _ _ SG). destruct SG as (_ & _ & SM & _). rewrite SM. split.
  - rewrite at_upd by lia. destruct (Z.eqb_spec (tend t) i); [lia|assumption].
  - intros j Hj. rewrite at_upd by lia. destruct (Z.eqb_spec j i) as [->|N]; [|apply SI, Hj].
    right. split; [exact Hd|]. exists x. split; [reflexivity|exact Hh].
Qed.
Lemma ordered_upd t b i e : geo t b -> slots t -> ordered t -> 0 <= i < tend t ->
  dist t i <= e_dist e -> (0 < i -> e_dist e <= dist t (i - 1) + 1) -> (i = 0 -> e_dist e <= 0) ->
  ordered (upd t i e).
Proof.
  intros G S (O1 & O2) Hi L1 L2 L3. destruct (geo_facts t b G) as (G1 & G2 & G3 & G4 & G5).
  unfold ordered. rewrite (sameg_tend _ _ (sameg_upd t i e)). split.
  - rewrite at_upd by lia. destruct (Z.eqb_spec 0 i); [apply L3; lia|assumption].
  - intros j Hj. rewrite !at_upd by lia. destruct (Z.eqb_spec (j + 1) i) as [E1|E1], (Z.eqb_spec j i) as [E2|E2].
    + lia.
    + replace j with (i - 1) by lia. apply L2. lia.
    + subst j. specialize (O2 i ltac:(lia)). lia.
    + apply O2. lia.
Qed.
Lemma slots_loose t : slots t -> loose t.
Proof.
  intros (A & B). split; [assumption|]. intros i Hi. destruct (B i Hi) as [(S1 & S2)|(S1 & x & S2 & S3)]; [left; split; [lia|assumption]|right; split; [lia|eauto]].
Qed.

Lemma displace_ok b : forall fuel t i d x, geo t b -> slots t -> ordered t ->
  run t (kof x) i d -> d < maxl t -> i <= tend t -> tlen t - i < Z.of_nat fuel ->
  match displace fuel t i d x with
  | Ok (t', None) => sameg t t' /\ slots t' /\ ordered t' /\ num t' = num t + 1 /\
      Permutation (vals t') (x :: vals t) /\ (forall j, 0 <= j < i -> at_ t' j = at_ t j) /\
      (dist t i < d -> at_ t' i = {| e_dist := d; e_val := Some x |})
  | Ok (t', Some z) => sameg t t' /\ slots t' /\ num t' = num t /\
      Permutation (z :: vals t') (x :: vals t) /\ (forall j, 0 <= j < i -> at_ t' j = at_ t j) /\
      (dist t i < d -> at_ t' i = {| e_dist := d; e_val := Some x |}) /\
      maxl t <= Z.of_nat (length (vals t))
  | _ => False
  end.
Proof.
  induction fuel as [|fuel IH]; intros t i d x G S O (R1 & R2 & R3) Hd Hi HF; [pose proof (geo_facts t b G); lia|].
  destruct (geo_facts t b G) as (G1 & G2 & G3 & G4 & G5). pose proof (home_range t b (kof x) G) as HR.
  cbn [displace]. rewrite rdz_at by lia. cbn [bind].
  assert (Hti : i < tend t) by lia.
  assert (NB : i < tend t) by assumption.
  assert (Prev : 0 < i -> 0 < d -> d <= dist t (i - 1) + 1) by (intros; specialize (R3 (i - 1)); lia).
  pose proof (proj2 S i ltac:(lia)) as SL.
  assert (Place : dist t i < d -> let t1 := upd t i {| e_dist := d; e_val := Some x |} in slots t1 /\ ordered t1).
  { intros L. split; [apply (slots_upd t b); (assumption || lia)|].
    apply (ordered_upd t b); cbn [e_dist]; try (assumption || lia).
    - intros Hp. destruct (Z.eq_dec d 0) as [->|N]; [|lia].
      destruct (proj2 S (i - 1) ltac:(lia)) as [(S1 & S2)|(S1 & y & S2 & S3)]; lia. }
  destruct (Z.ltb_spec (dist t i) 0) as [L|L].
  - rewrite wr_ok by lia. cbn [bind]. fold (upd t i {| e_dist := d; e_val := Some x |}).
    destruct SL as [(S1 & S2)|(S1 & y & S2 & S3)]; [|lia].
    destruct (Place ltac:(lia)) as (P1 & P2). set (t1 := upd t i _) in *.
    assert (SG : sameg t t1) by apply sameg_upd.
    split; [exact SG|]. split; [exact P1|]. split; [exact P2|]. split; [reflexivity|]. split.
    + pose proof (vals_upd t i {| e_dist := d; e_val := Some x |} ltac:(lia)) as PV. unfold oval in PV. rewrite S2 in PV. exact PV.
    + split.
      * intros j Hj. change (at_ (with_num t1 (num t1 + 1)) j) with (at_ t1 j). unfold t1. rewrite at_upd by lia. destruct (Z.eqb_spec j i); [lia|reflexivity].
      * intros _. change (at_ (with_num t1 (num t1 + 1)) i) with (at_ t1 i). unfold t1. rewrite at_upd by lia. rewrite Z.eqb_refl. reflexivity.
  - destruct SL as [(S1 & S2)|(S1 & y & S2 & S3)]; [lia|].
    destruct (Z.ltb_spec (dist t i) d) as [L2|L2].
    + rewrite S2, wr_ok by lia. cbn [bind]. fold (upd t i {| e_dist := d; e_val := Some x |}).
      destruct (Place L2) as (P1 & P2). set (t1 := upd t i _) in *.
      assert (SG : sameg t t1) by apply sameg_upd.
      assert (HT1 : forall j, 0 <= j -> at_ t1 j = if j =? i then {| e_dist := d; e_val := Some x |} else at_ t j)
        by (intros; unfold t1; apply at_upd; lia).
      assert (PV : Permutation (y :: vals t1) (x :: vals t)).
      { pose proof (vals_upd t i {| e_dist := d; e_val := Some x |} ltac:(lia)) as PV. unfold oval in PV. rewrite S2 in PV. exact PV. }
      assert (GT1 : maxl t1 = maxl t /\ tend t1 = tend t /\ tlen t1 = tlen t) by (split; [apply SG|split; [apply (sameg_tend _ _ SG)|apply SG]]).
      destruct GT1 as (GM & GE & GL).
      assert (R : run t1 (kof y) (i + 1) (dist t i + 1)).
      { unfold run. rewrite (sameg_home _ _ _ SG), GM. split; [lia|]. split; [lia|].
        intros j Hj. rewrite HT1 by (pose proof (home_range t b (kof y) G); lia). destruct (Z.eqb_spec j i) as [->|N]; cbn [e_dist]; [lia|].
        pose proof (ordered_back t O j i). pose proof (home_range t b (kof y) G). lia. }
      specialize (IH t1 (i + 1) (dist t i + 1) y (sameg_geo _ _ _ SG G) P1 P2 R ltac:(lia) ltac:(lia) ltac:(lia)).
      destruct (displace fuel t1 (i + 1) (dist t i + 1) y) as [(t', [z|])| | |]; try contradiction.
      * destruct IH as (I1 & I2 & I3 & I4 & I5 & I6 & I7).
        split; [apply (sameg_trans _ _ _ SG I1)|]. split; [exact I2|]. split; [exact I3|].
        split; [rewrite I4; exact PV|]. split; [intros j Hj; rewrite I5 by lia; rewrite HT1 by lia; destruct (Z.eqb_spec j i); [lia|reflexivity]|].
        split; [intros _; rewrite I5 by lia; rewrite HT1 by lia; rewrite Z.eqb_refl; reflexivity|].
        rewrite GM in I7. apply Permutation_length in PV. cbn [length] in PV. lia.
      * destruct IH as (I1 & I2 & I3 & I4 & I5 & I6 & I7).
        split; [apply (sameg_trans _ _ _ SG I1)|]. split; [exact I2|]. split; [exact I3|]. split; [exact I4|].
        split; [rewrite I5; exact PV|]. split; [intros j Hj; rewrite I6 by lia; rewrite HT1 by lia; destruct (Z.eqb_spec j i); [lia|reflexivity]|].
        intros _; rewrite I6 by lia; rewrite HT1 by lia; rewrite Z.eqb_refl; reflexivity.
    + destruct (Z.eqb_spec (d + 1) (maxl t)) as [Q|Q].
      * split; [apply sameg_refl|]. split; [exact S|]. split; [reflexivity|]. split; [apply Permutation_refl|].
        split; [reflexivity|]. split; [lia|].
        rewrite <- Q. apply (used_run t b (i + 1) (d + 1) G S); try lia.
        intros j Hj. destruct (Z.eq_dec j i) as [->|N]; [lia|]. specialize (R3 j). lia.
      * assert (R : run t (kof x) (i + 1) (d + 1)).
        { split; [lia|]. split; [lia|]. intros j Hj. destruct (Z.eq_dec j i) as [->|N]; [lia|]. apply R3. lia. }
        specialize (IH t (i + 1) (d + 1) x G S O R ltac:(lia) ltac:(lia) ltac:(lia)).
        destruct (displace fuel t (i + 1) (d + 1) x) as [(t', [z|])| | |]; try contradiction.
        -- destruct IH as (I1 & I2 & I3 & I4 & I5 & I6 & I7). repeat (split; [first [assumption | intros; apply I5; lia | lia]|]). assumption.
        -- destruct IH as (I1 & I2 & I3 & I4 & I5 & I6 & I7). repeat (split; [first [assumption | intros; apply I6; lia | lia]|]). lia.
Qed.

(** ** Growing *)
Lemma old_values_list (l : list (ent E)) :
  (forall e, In e l -> (e_dist e < 0 /\ e_val e = None) \/ (0 <= e_dist e /\ exists x, e_val e = Some x)) ->
  fold_right (fun e (acc : res (list E)) =>
      let! l := acc in
      if e_dist e >=? 0 then match e_val e with Some x => Ok (x :: l) | None => UB end else Ok l)
    (Ok []) l = Ok (evals l).
Proof.
  induction l as [|e l IH]; intros H; [reflexivity|]. cbn [fold_right]. rewrite IH by (intros; apply H; right; assumption).
  cbn [bind]. rewrite evals_cons. unfold oval. destruct (H e (or_introl eq_refl)) as [(A & B)|(A & x & B)]; rewrite B.
  - destruct (Z.geb_spec (e_dist e) 0); [lia|reflexivity].
  - destruct (Z.geb_spec (e_dist e) 0); [reflexivity|lia].
Qed.
Lemma split_end t b : geo t b -> at_ t (tend t) = end_ent -> ents t = firstn (Z.to_nat (tend t)) (ents t) ++ [end_ent].
Proof.
  intros G H. destruct (geo_facts t b G) as (G1 & G2 & G3 & G4 & G5). unfold tlen in G3.
  rewrite <- (firstn_skipn (Z.to_nat (tend t)) (ents t)) at 1. f_equal.
  pose proof (nth_at t (tend t) ltac:(unfold tlen; lia)) as N. rewrite H in N.
  destruct (nth_split' _ _ _ N) as (a & c & EQ & LA). rewrite EQ.
  rewrite <- LA. rewrite skipn_app, skipn_all, Nat.sub_diag. cbn. f_equal.
  assert (LE := f_equal (@length _) EQ). rewrite app_length in LE. cbn [length] in LE. destruct c; [reflexivity|cbn [length] in LE; lia].
Qed.
Lemma vals_firstn t b : geo t b -> at_ t (tend t) = end_ent -> vals t = evals (firstn (Z.to_nat (tend t)) (ents t)).
Proof.
  intros G H. unfold vals. rewrite (split_end t b G H) at 1. rewrite evals_app. cbn. apply app_nil_r.
Qed.
Lemma in_firstn_at t b e : geo t b -> In e (firstn (Z.to_nat (tend t)) (ents t)) ->
  exists i, 0 <= i < tend t /\ e = at_ t i.
Proof.
  intros G H. destruct (geo_facts t b G) as (G1 & G2 & G3 & G4 & G5). unfold tlen in G3.
  destruct (In_nth_error _ _ H) as (n & Hn).
  assert (L : (n < length (firstn (Z.to_nat (tend t)) (ents t)))%nat) by (apply nth_error_Some; congruence).
  rewrite firstn_length in L. exists (Z.of_nat n). split; [lia|]. unfold at_. rewrite Nat2Z.id.
  symmetry. apply nth_error_nth. rewrite <- Hn.
  rewrite <- (firstn_skipn (Z.to_nat (tend t)) (ents t)) at 1. apply nth_error_app1. rewrite firstn_length. lia.
Qed.
Lemma old_values_ok t b : geo t b -> loose t -> old_values t = Ok (vals t).
Proof.
  intros G (L1 & L2). rewrite (vals_firstn t b G L1). unfold old_values. fold (tend t). apply old_values_list.
  intros e He. destruct (in_firstn_at t b e G He) as (i & Hi & ->). apply L2, Hi.
Qed.

Lemma nth_free n i : nth i (repeat free n ++ [end_ent]) (@end_ent E) = if (i <? n)%nat then free else end_ent.
Proof.
  destruct (Nat.ltb_spec i n) as [L|L].
  - rewrite app_nth1 by (rewrite repeat_length; assumption). 
    rewrite nth_indep with (d' := free) by (rewrite repeat_length; assumption). apply nth_repeat.
  - rewrite app_nth2 by (rewrite repeat_length; assumption). rewrite repeat_length.
    destruct (i - n)%nat as [|[|m]]; reflexivity.
Qed.
Lemma blank_wf (t : table E) b : geo t b -> num t = 0 ->
  (forall i, 0 <= i < tend t -> at_ t i = free) -> at_ t (tend t) = end_ent -> wfb t b /\ vals t = [].
Proof.
  intros G N HF HE. destruct (geo_facts t b G) as (G1 & G2 & G3 & G4 & G5).
  assert (V : vals t = []).
  { rewrite (vals_firstn t b G HE). apply evals_none. intros e He. destruct (in_firstn_at t b e G He) as (i & Hi & ->). rewrite HF by assumption. reflexivity. }
  split; [|exact V]. split; [exact G|]. split; [|split; [|split; [|split]]].
  - split; [exact HE|]. intros i Hi. left. rewrite HF by assumption. split; reflexivity.
  - split; [rewrite HF by lia; cbn; lia|]. intros i Hi.
    destruct (Z.eq_dec (i + 1) (tend t)) as [Q|Q]; [rewrite Q, HE, HF by assumption; cbn; lia|].
    rewrite !HF by lia. cbn. lia.
  - rewrite V. constructor.
  - rewrite V. exact N.
  - rewrite N. lia.
Qed.
Lemma new_table_ok b : 1 <= b <= 51 ->
  wfb (new_table (2 ^ b) (64 - b) (Z.max 4 b)) b /\ vals (E := E) (new_table (2 ^ b) (64 - b) (Z.max 4 b)) = [].
Proof.
  intros Hb. pose proof (pow_pos b ltac:(lia)).
  assert (TE : tend (@new_table E (2 ^ b) (64 - b) (Z.max 4 b)) = 2 ^ b + Z.max 4 b - 1) by (unfold tend; cbn [nsm1 maxl new_table]; lia).
  apply blank_wf.
  - unfold geo, tlen. cbn [nsm1 shift maxl ents new_table]. rewrite app_length, repeat_length. cbn [length]. lia.
  - reflexivity.
  - intros i Hi. rewrite TE in Hi. unfold at_. cbn [ents new_table]. rewrite nth_free.
    destruct (Nat.ltb_spec (Z.to_nat i) (Z.to_nat (2 ^ b + Z.max 4 b - 1))); [reflexivity|lia].
  - rewrite TE. unfold at_. cbn [ents new_table]. rewrite nth_free.
    destruct (Nat.ltb_spec (Z.to_nat (2 ^ b + Z.max 4 b - 1)) (Z.to_nat (2 ^ b + Z.max 4 b - 1))); [lia|reflexivity].
Qed.

Definition big (t : table E) (b : Z) : Prop := (t = tempty /\ b = 0) \/ wfb t b.
Definition len (l : list E) : Z := Z.of_nat (length l).

(** What emplace does *)
Definition emplace_post (t : table E) (b : Z) (x : E) (r : res (table E * (Z * bool))) : Prop :=
  match r with
  | Ok (t', (i, true)) => (exists b', b <= b' /\ wfb t' b') /\ Permutation (vals t') (x :: vals t) /\
      (forall y, In y (vals t) -> eqb (kof x) (kof y) = false) /\
      0 <= i < tend t' /\ e_val (at_ t' i) = Some x
  | Ok (t', (i, false)) => t' = t /\ wfb t b /\ 0 <= i < tend t /\
      exists y, e_val (at_ t i) = Some y /\ eqb (kof x) (kof y) = true
  | Exn e => e = bad_alloc /\ cap < 2 ^ (len (vals t) + 3)
  | _ => False
  end.
Definition emplace_good (fuel : nat) : Prop := forall t b x, big t b -> 52 - b <= Z.of_nat fuel ->
  emplace_post t b x (emplace kof hash eqb cap fuel t x).

Lemma pow_le a c : 0 <= a <= c -> 2 ^ a <= 2 ^ c.
Proof. intros H. apply Z.pow_le_mono_r; lia. Qed.

Lemma insert_fold (eqb_sym : symm) fuel : emplace_good fuel -> forall vs t b, big t b -> 52 - b <= Z.of_nat fuel ->
  kdistinct (vs ++ vals t) ->
  match fold_left (fun (acc : res (table E)) x =>
            let! t := acc in let! (t, _) := emplace kof hash eqb cap fuel t x in Ok t) vs (Ok t) with
  | Ok t' => (exists b', b <= b' /\ big t' b') /\ Permutation (vals t') (vs ++ vals t)
  | Exn e => e = bad_alloc /\ cap < 2 ^ (len vs + len (vals t) + 2)
  | _ => False
  end.
Proof.
  intros IH. induction vs as [|x vs IHv]; intros t b B HF KD.
  - cbn [fold_left app]. split; [exists b; split; [lia|assumption]|apply Permutation_refl].
  - cbn [fold_left bind]. specialize (IH t b x B HF). unfold emplace_post in IH.
    assert (PP : Permutation ((x :: vs) ++ vals t) (vs ++ x :: vals t)) by apply Permutation_middle.
    destruct (emplace kof hash eqb cap fuel t x) as [(t', (i, [|]))|e| |]; try contradiction.
    + destruct IH as ((b' & Hb & W) & P & _). cbn [bind].
      assert (KD' : kdistinct (vs ++ vals t')).
      { apply (kdistinct_perm eqb_sym ((x :: vs) ++ vals t)); [|exact KD]. rewrite PP. apply Permutation_app_head. symmetry. exact P. }
      specialize (IHv t' b' (or_intror W) ltac:(lia) KD').
      assert (LP := Permutation_length P). cbn [length] in LP.
      destruct (fold_left _ vs (Ok t')) as [t''|e| |]; try contradiction.
      * destruct IHv as ((b'' & Hb' & W') & P'). split; [exists b''; split; [lia|assumption]|].
        rewrite P', P. symmetry. exact PP.
      * destruct IHv as (-> & HC). split; [reflexivity|]. unfold len in *. rewrite LP in HC. cbn [length].
        replace (Z.of_nat (S (length vs)) + Z.of_nat (length (vals t)) + 2) with (Z.of_nat (length vs) + Z.of_nat (S (length (vals t))) + 2) by lia.
        exact HC.
    + exfalso. destruct IH as (-> & W & Hi & y & Hy & Q).
      cbn [app] in KD. inversion KD as [|? ? KD1 KD2]; subst.
      rewrite KD1 in Q; [discriminate Q|]. apply in_or_app. right. apply in_vals. exists i.
      pose proof (geo_facts t b (proj1 W)). split; [lia|assumption].
    + destruct IH as (-> & HC). cbn [bind].
      assert (SK : forall l, fold_left (fun (acc : res (table E)) x =>
            let! t := acc in let! (t, _) := emplace kof hash eqb cap fuel t x in Ok t) l (Exn bad_alloc) = Exn bad_alloc)
        by (induction l; [reflexivity|cbn [fold_left bind]; assumption]).
      rewrite SK. split; [reflexivity|]. eapply Z.lt_le_trans; [exact HC|]. apply pow_le. unfold len. cbn [length]. lia.
Qed.

(** A table whose contents may be moved: num is right, keys are distinct *)
Definition movable (t : table E) : Prop :=
  (t = tempty \/ exists b, geo t b /\ loose t) /\ kdistinct (vals t) /\ num t = len (vals t) /\ num t < 2 ^ 53.
Lemma movable_old t : movable t -> old_values t = Ok (vals t).
Proof. intros ([->|(b & G & L)] & _); [reflexivity|apply (old_values_ok t b G L)]. Qed.

Lemma rehash_with_ok (eqb_sym : symm) fuel t nb b : emplace_good fuel -> movable t ->
  1 <= b <= 63 -> 52 - b <= Z.of_nat fuel -> cap <= 2 ^ 52 ->
  Z.max nb (2 * num t) <> 0 -> next_size_over (Z.max nb (2 * num t)) = Ok (2 ^ b, 64 - b) ->
  match rehash_with cap (emplace kof hash eqb cap fuel) t nb with
  | Ok t' => (bucket_count t = 2 ^ b /\ t' = t) \/
      (bucket_count t <> 2 ^ b /\ (exists b', b <= b' /\ wfb t' b') /\ Permutation (vals t') (vals t))
  | Exn e => e = bad_alloc /\ (cap < 2 ^ (len (vals t) + 2) \/ cap < 2 ^ b + Z.max 4 b)
  | _ => False
  end.
Proof.
  intros IH M Hb HF HC NZ NS. unfold rehash_with. assert (M' := M). destruct M' as (_ & KD & NV & NL).
  rewrite twice_small by (unfold len in NV; lia). cbn [bind].
  destruct (Z.eqb_spec (Z.max nb (2 * num t)) 0) as [Q|_]; [lia|]. rewrite NS. cbn [bind].
  destruct (Z.eqb_spec (2 ^ b) (bucket_count t)) as [Q|Q]; [left; auto|].
  rewrite max_lookups_pow by lia. cbn [bind].
  destruct (Z.gtb_spec (2 ^ b + Z.max 4 b) cap) as [L|L]; [split; [reflexivity|right; lia]|].
  rewrite (movable_old t M). cbn [bind].
  assert (Hb' : b <= 51).
  { destruct (Z_le_gt_dec b 51); [assumption|]. pose proof (pow_le 52 b ltac:(lia)). lia. }
  destruct (new_table_ok b ltac:(lia)) as (W & V).
  pose proof (insert_fold eqb_sym fuel IH (vals t) (new_table (2 ^ b) (64 - b) (Z.max 4 b)) b (or_intror W) ltac:(lia)) as F.
  rewrite V, app_nil_r in F. specialize (F KD).
  destruct (fold_left _ (vals t) _) as [t'|e| |]; try contradiction.
  - right. split; [congruence|]. destruct F as ((b' & Hb2 & [(-> & ->)|W']) & P); [lia|]. split; [exists b'; split; assumption|exact P].
  - destruct F as (-> & F). split; [reflexivity|left]. unfold len in *. cbn [length] in F. rewrite Z.add_0_r in F. exact F.
Qed.

Lemma next_size_pow c : 1 <= c <= 63 -> next_size_over (2 ^ c) = Ok (2 ^ c, 64 - c).
Proof.
  intros H. pose proof (pow_pos c ltac:(lia)). pose proof (pow_le c 63 ltac:(lia)).
  unfold next_size_over. rewrite next_power_small by lia. rewrite Z.log2_up_pow2 by lia. rewrite Z.max_r by lia.
  rewrite log2_pow by lia. reflexivity.
Qed.
Lemma pow_succ b : 0 <= b -> 2 ^ (b + 1) = 2 * 2 ^ b.
Proof. intros H. rewrite Z.pow_add_r by lia. change (2 ^ 1) with 2. lia. Qed.

Lemma grow_ok (eqb_sym : symm) fuel t b : emplace_good fuel -> cap <= 2 ^ 52 ->
  (t = tempty /\ b = 1 /\ 50 <= Z.of_nat fuel \/
   geo t b /\ loose t /\ kdistinct (vals t) /\ num t = len (vals t) /\ 2 * num t <= 2 ^ b /\ 51 - b <= Z.of_nat fuel) ->
  match rehash_with cap (emplace kof hash eqb cap fuel) t (Z.max 4 (2 * bucket_count t)) with
  | Ok t' => (exists b', b + 1 <= b' /\ wfb t' b') /\ Permutation (vals t') (vals t)
  | Exn e => e = bad_alloc /\ (cap < 2 ^ (len (vals t) + 2) \/ cap < 2 ^ (b + 2))
  | _ => False
  end.
Proof.
  intros IH HC H.
  assert (Hb : 1 <= b <= 51) by (destruct H as [(_ & -> & _)|(G & _)]; [lia|apply G]).
  pose proof (pow_pos b ltac:(lia)) as HP. pose proof (pow_le b 51 ltac:(lia)) as HP2.
  assert (M : movable t).
  { destruct H as [(-> & _)|(G & L & KD & NV & N2 & _)].
    - split; [left; reflexivity|]. split; [constructor|]. split; [reflexivity|cbn; lia].
    - split; [right; exists b; auto|]. split; [assumption|]. split; [assumption|lia]. }
  assert (NS : Z.max (Z.max 4 (2 * bucket_count t)) (2 * num t) = 2 ^ (b + 1) /\ bucket_count t <> 2 ^ (b + 1)).
  { rewrite pow_succ by lia. destruct H as [(-> & -> & _)|(G & L & KD & NV & N2 & _)]; [split; [reflexivity|discriminate]|].
    destruct (geo_facts t b G) as (G1 & G2 & G3 & G4 & G5). unfold bucket_count. rewrite G5.
    destruct (Z.eqb_spec (2 ^ b - 1) 0); lia. }
  destruct NS as (NS & NB).
  assert (HF : 52 - (b + 1) <= Z.of_nat fuel) by (destruct H as [(_ & -> & HF)|(_ & _ & _ & _ & _ & HF)]; lia).
  pose proof (rehash_with_ok eqb_sym fuel t (Z.max 4 (2 * bucket_count t)) (b + 1) IH M ltac:(lia) HF HC) as R.
  rewrite NS in R. specialize (R ltac:(rewrite pow_succ by lia; lia) (next_size_pow (b + 1) ltac:(lia))).
  destruct (rehash_with _ _ _ _) as [t'|e| |]; try contradiction.
  - destruct R as [(R & _)|(_ & R1 & R2)]; [contradiction|]. split; [|exact R2]. exact R1.
  - destruct R as (-> & [R|R]); (split; [reflexivity|]); [left; exact R|right].
    eapply Z.lt_le_trans; [exact R|]. replace (b + 2) with (b + 1 + 1) by lia. rewrite (pow_succ (b + 1)) by lia.
    pose proof (pow2_gt (b + 1) ltac:(lia)). pose proof (pow_le 2 (b + 1) ltac:(lia)). change (2 ^ 2) with 4 in *. lia.
Qed.

Lemma lookup_tempty k : exists i, lookup (E := E) kof hash eqb tempty k = Ok (inr (i, 0)).
Proof.
  unfold lookup. assert (H : 0 <= hm tempty k < 2).
  { unfold home. change (shift tempty) with (64 - 1). pose proof (index_range (hash k) 1 ltac:(lia)). change (2 ^ 1) with 2 in *. lia. }
  exists (hm tempty k). cbn [probe]. set (i := hm tempty k) in *. clearbody i.
  assert (C : i = 0 \/ i = 1) by lia. destruct C as [-> | ->]; reflexivity.
Qed.

Lemma displace_step n (t : table E) i d (x : E) : dist t i < d -> 0 <= i < tlen t ->
  displace (S n) t i d x =
    (let! t' := wr t i {| e_dist := d; e_val := Some x |} in
     if dist t i <? 0 then Ok (with_num t' (num t' + 1), None)
     else match e_val (at_ t i) with
          | None => UB
          | Some y => displace n t' (i + 1) (dist t i + 1) y
          end).
Proof.
  intros L Hi. cbn [displace]. rewrite rdz_at by assumption. rewrite wr_ok by assumption. cbn [bind].
  destruct (Z.ltb_spec (dist t i) 0); [reflexivity|].
  destruct (Z.ltb_spec (dist t i) d); [|lia]. destruct (e_val (at_ t i)); reflexivity.
Qed.

Lemma vals_with_num t n : vals (E := E) (with_num t n) = vals t.
Proof. reflexivity. Qed.

Lemma emplace_ok (eqb_sym : symm) (hash_eq : hcong) (HC : cap <= 2 ^ 52) : forall fuel, emplace_good fuel.
Proof.
  induction fuel as [|fuel IH]; intros t b x B HF.
  { exfalso. destruct B as [(_ & ->)|((G & _) & _)]; lia. }
  cbn [emplace]. destruct B as [(-> & ->)|W].
  - (* the first element *)
    destruct (lookup_tempty (kof x)) as (i & ->). cbn [bind].
    change (nsm1 tempty =? 0) with true. cbn [orb].
    assert (F50 : 50 <= Z.of_nat fuel) by lia.
    pose proof (grow_ok eqb_sym fuel tempty 1 IH HC (or_introl (conj eq_refl (conj eq_refl F50)))) as GR.
    destruct (rehash_with _ _ _ _) as [t'|e| |]; try contradiction; cbn [bind].
    + destruct GR as ((b' & Hb & W') & P).
      specialize (IH t' b' x (or_intror W') ltac:(lia)). unfold emplace_post in *.
      assert (V : vals t' = []) by (apply Permutation_nil; symmetry; exact P).
      destruct (emplace kof hash eqb cap fuel t' x) as [(t'', (j, [|]))|e| |]; try contradiction.
      * destruct IH as ((b'' & Hb' & W'') & P' & N & R). rewrite V in *. split; [exists b''; split; [lia|assumption]|].
        split; [exact P'|]. split; [intros y []|]. exact R.
      * exfalso. destruct IH as (-> & _ & Hj & y & Hy & _).
        assert (In y (vals t')) as I by (apply in_vals; exists j; pose proof (geo_facts t' b' (proj1 W')); split; [lia|assumption]).
        rewrite V in I. destruct I.
      * rewrite V in IH. exact IH.
    + destruct GR as (-> & [GR|GR]); (split; [reflexivity|]).
      * eapply Z.lt_le_trans; [exact GR|]. apply pow_le. unfold len. lia.
      * exact GR.
  - destruct W as (G & S & O & KD & NV & NL). assert (W : wfb t b) by (repeat (split; [assumption|]); assumption).
    destruct (geo_facts t b G) as (G1 & G2 & G3 & G4 & G5).
    assert (Gb : 1 <= b <= 51 /\ b <= maxl t) by (destruct G as (Gb & _ & _ & GM & _); split; [assumption|rewrite GM; lia]).
    pose proof (lookup_ok hash_eq t b (kof x) G S O) as LK.
    destruct (lookup kof hash eqb t (kof x)) as [[i|(i, d)]| | |]; try contradiction; cbn [bind].
    { destruct LK as (Hi & y & Hy & Q). split; [reflexivity|]. split; [exact W|]. split; [assumption|]. exists y. auto. }
    destruct LK as (R & LD & AB). destruct (Z.eqb_spec (nsm1 t) 0) as [Q|_]; [lia|]. cbn [orb].
    assert (Again : forall t0, geo t0 b -> loose t0 -> Permutation (vals t0) (vals t) -> num t0 = num t ->
              2 ^ (b + 2) <= 2 ^ (len (vals t) + 3) ->
              emplace_post t b x (let! t' := rehash_with cap (emplace kof hash eqb cap fuel) t0 (Z.max 4 (2 * bucket_count t0)) in
                                  emplace kof hash eqb cap fuel t' x)).
    { intros t0 G0 L0 P0 N0 HB.
      assert (LP0 := Permutation_length P0).
      pose proof (grow_ok eqb_sym fuel t0 b IH HC) as GR.
      assert (KD0 : kdistinct (vals t0)) by (apply (kdistinct_perm eqb_sym (vals t)); [symmetry; exact P0|exact KD]).
      assert (NV0 : num t0 = len (vals t0)) by (unfold len; rewrite LP0, N0; exact NV).
      assert (N20 : 2 * num t0 <= 2 ^ b) by lia. assert (HF0 : 51 - b <= Z.of_nat fuel) by lia.
      specialize (GR (or_intror (conj G0 (conj L0 (conj KD0 (conj NV0 (conj N20 HF0))))))).
      destruct (rehash_with _ _ _ _) as [t'|e| |]; try contradiction; cbn [bind].
      - destruct GR as ((b' & Hb & W') & P).
        specialize (IH t' b' x (or_intror W') ltac:(lia)). unfold emplace_post in *.
        assert (PT : Permutation (vals t') (vals t)) by (rewrite P; exact P0).
        destruct (emplace kof hash eqb cap fuel t' x) as [(t'', (j, [|]))|e| |]; try contradiction.
        + destruct IH as ((b'' & Hb' & W'') & P' & N & R'). split; [exists b''; split; [lia|assumption]|].
          split; [rewrite P'; constructor; exact PT|]. split; [exact AB|]. exact R'.
        + exfalso. destruct IH as (-> & _ & Hj & y & Hy & Q).
          assert (In y (vals t')) as I by (apply in_vals; exists j; pose proof (geo_facts t' b' (proj1 W')); split; [lia|assumption]).
          apply (Permutation_in _ PT) in I. rewrite (AB y I) in Q. discriminate Q.
        + destruct IH as (-> & HC'). split; [reflexivity|]. unfold len in *. rewrite (Permutation_length PT) in HC'. exact HC'.
      - destruct GR as (-> & [GR|GR]); (split; [reflexivity|]).
        + eapply Z.lt_le_trans; [exact GR|]. apply pow_le. unfold len. lia.
        + lia. }
    assert (LB : forall n, b <= n + 1 -> 0 <= n -> 2 ^ (b + 2) <= 2 ^ (n + 3)) by (intros; apply pow_le; lia).
    destruct ((d =? maxl t) || (2 * (num t + 1) >? nsm1 t + 1)) eqn:FULL.
    + apply (Again t G (slots_loose t S) (Permutation_refl _) eq_refl).
      apply orb_true_iff in FULL. destruct FULL as [FULL|FULL].
      * apply Z.eqb_eq in FULL. apply LB; [|unfold len; lia].
        assert (d <= len (vals t)); [|lia]. destruct R as (R1 & R2 & R3). pose proof (home_range t b (kof x) G).
        apply (used_run t b i d G S); try lia; intros j Hj; specialize (R3 j); lia.
      * rewrite Z.gtb_ltb in FULL. apply Z.ltb_lt in FULL. rewrite NV in FULL.
        pose proof (pow2_gt (len (vals t)) ltac:(unfold len; lia)). fold (len (vals t)) in FULL.
        replace (b + 2) with (b + 1 + 1) by lia. rewrite !pow_succ by lia.
        replace (len (vals t) + 3) with (len (vals t) + 1 + 1 + 1) by lia. rewrite !pow_succ by (unfold len; lia). lia.
    + apply orb_false_iff in FULL. destruct FULL as (F1 & F2). apply Z.eqb_neq in F1. rewrite Z.gtb_ltb in F2. apply Z.ltb_ge in F2.
      assert (R' := R). destruct R' as (R1 & R2 & R3). pose proof (home_range t b (kof x) G) as HR.
      assert (Hi : 0 <= i < tend t) by lia.
      assert (D := displace_ok b (Datatypes.S (length (ents t))) t i d x G S O R ltac:(lia) ltac:(lia) ltac:(unfold tlen; lia)).
      rewrite (displace_step _ t i d x LD ltac:(lia)) in D.
      rewrite rdz_at by lia. rewrite wr_ok in * by lia. cbn [bind] in *.
      fold (upd t i {| e_dist := d; e_val := Some x |}) in *. set (t1 := upd t i _) in *.
      assert (L1 : length (ents t1) = length (ents t)) by (unfold t1, upd; cbn [ents with_ents]; apply lset_length).
      rewrite L1.
      destruct (Z.ltb_spec (dist t i) 0) as [L|L].
      * destruct D as (D1 & D2 & D3 & D4 & D5 & D6 & D7).
        set (t2 := with_num t1 (num t1 + 1)) in *.
        unfold emplace_post. split; [exists b; split; [lia|]|].
        { split; [exact (sameg_geo _ _ _ D1 G)|]. split; [exact D2|]. split; [exact D3|]. split; [|split].
          - apply (kdistinct_perm eqb_sym (x :: vals t)); [symmetry; exact D5|]. constructor; assumption.
          - rewrite (Permutation_length D5), D4, NV. cbn [length]. lia.
          - rewrite D4. lia. }
        split; [exact D5|]. split; [exact AB|]. rewrite (sameg_tend _ _ D1). split; [exact Hi|].
        rewrite D7 by lia. reflexivity.
      * destruct (proj2 S i Hi) as [(S1 & S2)|(S1 & y & S2 & S3)]; [lia|]. rewrite S2 in *.
        destruct (displace (length (ents t)) t1 (i + 1) (dist t i + 1) y) as [(t2, [z|])| | |]; try contradiction; cbn [bind].
        -- destruct D as (D1 & D2 & D3 & D4 & D5 & D6 & D7).
           assert (T2 : tlen t2 = tlen t) by apply D1.
           rewrite rdz_at by lia. cbn [bind]. rewrite D6 by lia. cbn [e_dist e_val]. rewrite wr_ok by lia. cbn [bind].
           fold (upd t2 i {| e_dist := d; e_val := Some z |}). set (t3 := upd t2 i _).
           apply Again.
           ++ apply (sameg_geo t2); [apply sameg_upd|]. apply (sameg_geo t); assumption.
           ++ unfold loose. rewrite (sameg_tend t2 t3 (sameg_upd _ _ _)), (sameg_tend _ _ D1).
              destruct (slots_loose t2 D2) as (X1 & X2). rewrite (sameg_tend _ _ D1) in X1, X2. split.
              ** unfold t3. rewrite at_upd by lia. destruct (Z.eqb_spec (tend t) i); [lia|exact X1].
              ** intros j Hj. unfold t3. rewrite at_upd by lia. destruct (Z.eqb_spec j i) as [->|N]; [|apply X2; lia].
                 right. cbn [e_dist e_val]. split; [lia|eauto].
           ++ pose proof (vals_upd t2 i {| e_dist := d; e_val := Some z |} ltac:(lia)) as PV.
              rewrite D6 in PV by lia. unfold oval in PV. cbn [e_val app] in PV. fold t3 in PV.
              rewrite D4 in PV. apply Permutation_cons_inv in PV. exact PV.
           ++ unfold t3. cbn [num upd with_ents]. exact D3.
           ++ apply LB; [|unfold len; lia]. unfold len. lia.
        -- destruct D as (D1 & D2 & D3 & D4 & D5 & D6 & D7).
           unfold emplace_post. split; [exists b; split; [lia|]|].
           { split; [exact (sameg_geo _ _ _ D1 G)|]. split; [exact D2|]. split; [exact D3|]. split; [|split].
             - apply (kdistinct_perm eqb_sym (x :: vals t)); [symmetry; exact D5|]. constructor; assumption.
             - rewrite (Permutation_length D5), D4, NV. cbn [length]. lia.
             - rewrite D4. lia. }
           split; [exact D5|]. split; [exact AB|]. rewrite (sameg_tend _ _ D1). split; [exact Hi|].
           rewrite D7 by lia. reflexivity.
Qed.
End Inv.
