(** The other operations of the hash table keep its invariant and do what they should. *)
From Coq Require Import Permutation.
From Verif Require Import Base ListAux HashModel HashArith HashTable.
Ltac Zify.zify_post_hook ::= Z.to_euclidean_division_equations.

Section Ops.
Context {E K : Type}.
Variable kof : E -> K.
Variable hash : K -> Z.
Variable eqb : K -> K -> bool.
Variable cap : Z.
Hypothesis eqb_sym : forall a b, eqb a b = eqb b a.
Hypothesis hash_eq : forall a b, eqb a b = true -> hash a = hash b.

Notation wf := (wf kof hash eqb).
Notation wfb := (wfb kof hash eqb).
Notation slots := (slots kof hash).
Notation hm := (home (E := E) hash).

Lemma vals_tempty : vals (@tempty E) = [].
Proof. reflexivity. Qed.
Lemma wf_kd t : wf t -> kdistinct kof eqb (vals t).
Proof. intros [->|(b & W)]; [constructor|apply W]. Qed.
Lemma wf_num t : wf t -> num t = len (vals t).
Proof. intros [->|(b & W)]; [reflexivity|apply W]. Qed.
Lemma wf_num_small t : wf t -> 0 <= num t <= 2 ^ 50.
Proof.
  intros W. pose proof (wf_num t W) as N. unfold len in N. split; [lia|]. destruct W as [->|(b & G & _ & _ & _ & _ & L)]; [cbn; lia|].
  destruct G as (Gb & _). pose proof (pow_le b 51 ltac:(lia)). change (2 ^ 51) with (2 * 2 ^ 50) in *. lia.
Qed.
Lemma val_in t b i x : wfb t b -> 0 <= i < tend t -> e_val (at_ t i) = Some x -> In x (vals t).
Proof. intros W Hi Hx. apply in_vals. exists i. pose proof (geo_facts t b (proj1 W)). split; [lia|assumption]. Qed.

(** ** find *)
Lemma find_ok t k : wf t ->
  match find kof hash eqb t k with
  | Ok (Some i) => (exists b, wfb t b) /\ 0 <= i < tend t /\ exists x, e_val (at_ t i) = Some x /\ In x (vals t) /\ eqb k (kof x) = true
  | Ok None => forall x, In x (vals t) -> eqb k (kof x) = false
  | _ => False
  end.
Proof.
  intros [->|(b & W)]; unfold find.
  - destruct (lookup_tempty kof hash eqb k) as (i & ->). cbn [bind]. intros x [].
  - pose proof (lookup_ok kof hash eqb hash_eq t b k (proj1 W) (proj1 (proj2 W)) (proj1 (proj2 (proj2 W)))) as L.
    destruct (lookup kof hash eqb t k) as [[i|(i, d)]| | |]; try contradiction; cbn [bind].
    + destruct L as (Hi & x & Hx & Q). split; [eauto|]. split; [assumption|]. exists x. split; [assumption|]. split; [apply (val_in t b i); assumption|assumption].
    + apply L.
Qed.
Lemma deref_ok t b i x : wfb t b -> 0 <= i < tend t -> e_val (at_ t i) = Some x -> deref t i = Ok x.
Proof.
  intros W Hi Hx. unfold deref. pose proof (geo_facts t b (proj1 W)). rewrite rdz_at by lia. cbn [bind]. rewrite Hx. reflexivity.
Qed.

(** ** Overwriting a value under the same key *)
Lemma kd_same_key x x' l : kof x' = kof x -> kdistinct kof eqb (x :: l) -> kdistinct kof eqb (x' :: l).
Proof. intros Q H. inversion H as [|? ? H1 H2]; subst. constructor; [rewrite Q; assumption|assumption]. Qed.
Lemma overwrite_ok t b i x x' : wfb t b -> 0 <= i < tend t -> e_val (at_ t i) = Some x -> kof x' = kof x ->
  let t' := upd t i {| e_dist := dist t i; e_val := Some x' |} in
  wfb t' b /\ Permutation (x :: vals t') (x' :: vals t).
Proof.
  intros W Hi Hx HK t'. destruct W as (G & S & O & KD & NV & NL).
  destruct (geo_facts t b G) as (G1 & G2 & G3 & G4 & G5).
  destruct (slot_val_lt kof hash t b G S i x ltac:(lia) Hx) as (I1 & I2 & I3).
  assert (SG : sameg t t') by apply sameg_upd.
  assert (PV : Permutation (x :: vals t') (x' :: vals t)).
  { pose proof (vals_upd t i {| e_dist := dist t i; e_val := Some x' |} ltac:(lia)) as PV. unfold oval in PV. rewrite Hx in PV. exact PV. }
  split; [|exact PV]. split; [apply (sameg_geo _ _ _ SG G)|]. split; [|split; [|split; [|split]]].
  - apply (slots_upd kof hash t b); try assumption. rewrite HK. assumption.
  - destruct O as (O1 & O2). apply (ordered_upd kof hash t b); cbn [e_dist]; try (assumption || lia || (split; assumption)).
    + intros Hp. specialize (O2 (i - 1) ltac:(lia)). replace (i - 1 + 1) with i in O2 by lia. exact O2.
    + intros ->. exact O1.
  - assert (I : In x (vals t)) by (apply in_vals; exists i; split; [lia|assumption]).
    destruct (in_split _ _ I) as (l1 & l2 & EQ).
    assert (P0 : Permutation (vals t) (x :: l1 ++ l2)) by (rewrite EQ; symmetry; apply Permutation_middle).
    rewrite P0 in PV. assert (PV' : Permutation (x :: vals t') (x :: x' :: l1 ++ l2)) by (rewrite PV; apply perm_swap).
    apply Permutation_cons_inv in PV'. apply (kdistinct_perm kof eqb eqb_sym (x' :: l1 ++ l2)); [symmetry; exact PV'|].
    apply (kd_same_key x); [assumption|]. apply (kdistinct_perm kof eqb eqb_sym (vals t)); assumption.
  - apply Permutation_length in PV. cbn [length] in PV. replace (length (vals t')) with (length (vals t)) by lia. exact NV.
  - exact NL.
Qed.

(** ** erase *)
Lemma shift_back_ok b : forall fuel t i, geo t b -> slots t -> 0 <= i < tend t -> at_ t i = free ->
  dist t 0 <= 0 -> (forall j, 0 <= j < tend t -> j <> i -> dist t (j + 1) <= dist t j + 1) ->
  (0 < i -> dist t (i + 1) <= dist t (i - 1) + 2) -> (i = 0 -> dist t 1 <= 1) ->
  tlen t - i < Z.of_nat fuel ->
  exists t', shift_back fuel t i = Ok t' /\ sameg t t' /\ slots t' /\ ordered t' /\ num t' = num t /\ Permutation (vals t') (vals t).
Proof.
  induction fuel as [|fuel IH]; intros t i G S Hi HF H0 HO H1 H2 HL; [pose proof (geo_facts t b G); lia|].
  destruct (geo_facts t b G) as (G1 & G2 & G3 & G4 & G5).
  cbn [shift_back]. rewrite rdz_at by lia. cbn [bind].
  destruct (Z.leb_spec (dist t (i + 1)) 0) as [L|L].
  - exists t. split; [reflexivity|]. split; [apply sameg_refl|]. split; [exact S|]. split; [|split; [reflexivity|apply Permutation_refl]].
    split; [exact H0|]. intros j Hj. destruct (Z.eq_dec j i) as [->|N]; [rewrite HF; cbn [e_dist free]; lia|apply HO; assumption].
  - assert (Hi1 : i + 1 < tend t).
    { destruct (Z.eq_dec (i + 1) (tend t)) as [Q|]; [|lia]. rewrite Q, (proj1 S) in L. cbn in L. lia. }
    destruct (proj2 S (i + 1) ltac:(lia)) as [(S1 & S2)|(S1 & x & S2 & S3)]; [lia|]. rewrite S2.
    set (e := {| e_dist := dist t (i + 1) - 1; e_val := Some x |}).
    rewrite wr_ok by lia. cbn [bind]. fold (upd t i e). set (t1 := upd t i e).
    assert (SG1 : sameg t t1) by apply sameg_upd. assert (L1 : tlen t1 = tlen t) by apply SG1.
    rewrite wr_ok by lia. cbn [bind]. fold (upd t1 (i + 1) free). set (t2 := upd t1 (i + 1) free).
    assert (SG2 : sameg t t2) by (apply (sameg_trans _ _ _ SG1), sameg_upd).
    assert (A2 : forall j, 0 <= j -> at_ t2 j = if j =? i + 1 then free else if j =? i then e else at_ t j).
    { intros j Hj. unfold t2. rewrite at_upd by lia. destruct (Z.eqb_spec j (i + 1)); [reflexivity|]. unfold t1. apply at_upd; lia. }
    assert (TE : tend t2 = tend t) by apply (sameg_tend _ _ SG2).
    assert (ML : maxl t2 = maxl t) by apply SG2.
    assert (S' : slots t2).
    { unfold HashTable.slots, slot. rewrite TE, ML. split.
      - rewrite A2 by lia. destruct (Z.eqb_spec (tend t) (i + 1)); [lia|]. destruct (Z.eqb_spec (tend t) i); [lia|apply S].
      - intros j Hj. rewrite A2 by lia. destruct (Z.eqb_spec j (i + 1)) as [->|N1]; [left; split; reflexivity|].
        destruct (Z.eqb_spec j i) as [->|N2]; [|apply (proj2 S); assumption].
        right. unfold e. cbn [e_dist e_val]. split; [lia|]. exists x. split; [reflexivity|].
        rewrite (sameg_home _ _ _ _ SG2). lia. }
    destruct (IH t2 (i + 1)) as (t' & R1 & R2 & R3 & R4 & R5 & R6); try assumption.
    + apply (sameg_geo _ _ _ SG2 G).
    + lia.
    + rewrite A2 by lia. rewrite Z.eqb_refl. reflexivity.
    + rewrite A2 by lia. destruct (Z.eqb_spec 0 (i + 1)); [lia|]. destruct (Z.eqb_spec 0 i) as [Q|Q]; [|assumption].
      unfold e. cbn [e_dist]. replace (i + 1) with 1 by lia. specialize (H2 ltac:(lia)). lia.
    + intros j Hj N. rewrite TE in Hj. rewrite !A2 by lia.
      destruct (Z.eqb_spec (j + 1) (i + 1)) as [Q1|Q1]; [|destruct (Z.eqb_spec (j + 1) i) as [Q2|Q2]].
      * assert (j = i) by lia. subst j. destruct (Z.eqb_spec i (i + 1)); [lia|]. rewrite Z.eqb_refl. unfold e. cbn [e_dist free]. lia.
      * destruct (Z.eqb_spec j (i + 1)); [lia|]. destruct (Z.eqb_spec j i); [lia|]. unfold e. cbn [e_dist].
        specialize (H1 ltac:(lia)). replace j with (i - 1) by lia. lia.
      * destruct (Z.eqb_spec j (i + 1)); [lia|]. destruct (Z.eqb_spec j i); [lia|]. apply HO; lia.
    + intros _. rewrite !A2 by lia. destruct (Z.eqb_spec (i + 1 + 1) (i + 1)); [lia|]. destruct (Z.eqb_spec (i + 1 + 1) i); [lia|].
      destruct (Z.eqb_spec (i + 1 - 1) (i + 1)); [lia|]. destruct (Z.eqb_spec (i + 1 - 1) i); [|lia]. unfold e. cbn [e_dist].
      specialize (HO (i + 1) ltac:(lia) ltac:(lia)). lia.
    + lia.
    + destruct SG2 as (_ & _ & _ & SL). rewrite SL. lia.
    + exists t'. split; [exact R1|]. split; [apply (sameg_trans _ _ _ SG2 R2)|]. split; [exact R3|]. split; [exact R4|].
      split; [rewrite R5; reflexivity|]. rewrite R6.
      pose proof (vals_upd t i e ltac:(lia)) as P1. rewrite HF in P1. unfold oval in P1. cbn [e_val free e app] in P1. fold t1 in P1.
      pose proof (vals_upd t1 (i + 1) free ltac:(lia)) as P2. fold t2 in P2.
      unfold t1 in P2 at 1. rewrite at_upd in P2 by lia. destruct (Z.eqb_spec (i + 1) i); [lia|].
      unfold oval in P2. rewrite S2 in P2. cbn [e_val free app] in P2. rewrite P1 in P2.
      apply Permutation_cons_inv in P2. exact P2.
Qed.
Lemma erase_ok t b i x : wfb t b -> 0 <= i < tend t -> e_val (at_ t i) = Some x ->
  exists t', erase_at t i = Ok t' /\ wfb t' b /\ Permutation (x :: vals t') (vals t).
Proof.
  intros W Hi Hx. unfold erase_at. rewrite (deref_ok t b i x W Hi Hx). cbn [bind].
  destruct W as (G & S & O & KD & NV & NL). destruct (geo_facts t b G) as (G1 & G2 & G3 & G4 & G5).
  rewrite wr_ok by lia. cbn [bind]. fold (upd t i (@free E)). set (t1 := upd t i free).
  assert (SG1 : sameg t t1) by apply sameg_upd.
  assert (PV : Permutation (x :: vals t1) (vals t)).
  { pose proof (vals_upd t i free ltac:(lia)) as P. unfold oval in P. rewrite Hx in P. exact P. }
  assert (LV := Permutation_length PV). cbn [length] in LV.
  set (t2 := with_num t1 (wrapu64 (num t1 - 1))).
  assert (N2 : num t2 = Z.of_nat (length (vals t1))).
  { unfold t2. cbn [num with_num]. change (num t1) with (num t). unfold wrapu64.
    assert (2 ^ b <= 2 ^ 51) by (apply pow_le; destruct G; lia).
    rewrite Z.mod_small by (unfold two64; lia). lia. }
  assert (A2 : forall j, 0 <= j -> at_ t2 j = if j =? i then free else at_ t j) by (intros; apply at_upd; lia).
  assert (SG2 : sameg t t2) by exact SG1.
  assert (TE : tend t2 = tend t) by apply (sameg_tend _ _ SG2).
  assert (ML : maxl t2 = maxl t) by apply SG2.
  assert (L2 : length (ents t1) = length (ents t2)) by reflexivity. rewrite L2.
  destruct (slot_val_lt kof hash t b G S i x ltac:(lia) Hx) as (I1 & I2 & I3).
  destruct O as (O1 & O2).
  destruct (shift_back_ok b (Datatypes.S (length (ents t2))) t2 i) as (t' & R1 & R2 & R3 & R4 & R5 & R6).
  - apply (sameg_geo _ _ _ SG2 G).
  - unfold HashTable.slots, slot. rewrite TE, ML. split.
    + rewrite A2 by lia. destruct (Z.eqb_spec (tend t) i); [lia|apply S].
    + intros j Hj. rewrite A2 by lia. destruct (Z.eqb_spec j i) as [->|N1]; [left; split; reflexivity|]. apply (proj2 S); assumption.
  - lia.
  - rewrite A2 by lia. rewrite Z.eqb_refl. reflexivity.
  - rewrite A2 by lia. destruct (Z.eqb_spec 0 i); [cbn; lia|assumption].
  - intros j Hj N. rewrite TE in Hj. rewrite !A2 by lia. specialize (O2 j Hj).
    destruct (Z.eqb_spec j i); [lia|]. destruct (Z.eqb_spec (j + 1) i); [|assumption].
    cbn [e_dist free]. destruct (proj2 S j Hj) as [(X & _)|(X & _)]; lia.
  - intros Hp. rewrite !A2 by lia. destruct (Z.eqb_spec (i + 1) i); [lia|]. destruct (Z.eqb_spec (i - 1) i); [lia|].
    pose proof (O2 i ltac:(lia)). pose proof (O2 (i - 1) ltac:(lia)) as O3. replace (i - 1 + 1) with i in O3 by lia. lia.
  - intros ->. rewrite A2 by lia. destruct (Z.eqb_spec 1 0); [lia|]. specialize (O2 0 ltac:(lia)). change (0 + 1) with 1 in O2. lia.
  - unfold tlen. lia.
  - exists t'. split; [exact R1|]. 
    assert (PV' : Permutation (x :: vals t') (vals t)) by (rewrite R6; exact PV).
    split; [|exact PV'].
    split; [apply (sameg_geo _ _ _ R2), (sameg_geo _ _ _ SG2 G)|]. split; [exact R3|]. split; [exact R4|].
    assert (KD' : kdistinct kof eqb (x :: vals t')) by (apply (kdistinct_perm kof eqb eqb_sym (vals t)); [symmetry; exact PV'|exact KD]).
    inversion KD' as [|? ? K1 K2]; subst. split; [exact K2|]. rewrite R5, N2. rewrite (Permutation_length R6).
    change (vals t2) with (vals t1). split; [reflexivity|]. lia.
Qed.

(** ** clear *)
Lemma clear_ok t : wf t -> wf (tclear t) /\ vals (tclear t) = [].
Proof.
  intros [->|(b & W)]; [split; [left; reflexivity|reflexivity]|].
  destruct W as (G & S & O & KD & NV & NL). destruct (geo_facts t b G) as (G1 & G2 & G3 & G4 & G5).
  pose proof (split_end t b G (proj1 S)) as SE. unfold tlen in G3.
  set (f := fun e : ent E => if e_dist e >=? 0 then free else e).
  assert (SK : skipn (Z.to_nat (tend t)) (ents t) = [end_ent]).
  { rewrite SE at 1. set (l := firstn _ (ents t)) in *. assert (length l = Z.to_nat (tend t)) as <- by (unfold l; rewrite firstn_length; lia).
    rewrite skipn_app, skipn_all, Nat.sub_diag. reflexivity. }
  assert (T : tclear t = with_num (with_ents t (map f (firstn (Z.to_nat (tend t)) (ents t)) ++ [end_ent])) 0).
  { unfold tclear. fold (tend t). rewrite SK. reflexivity. }
  set (t' := with_num _ 0) in T. rewrite T.
  assert (LL : length (map f (firstn (Z.to_nat (tend t)) (ents t))) = Z.to_nat (tend t)) by (rewrite map_length, firstn_length; lia).
  assert (SG : sameg t t').
  { unfold sameg, t', tlen. cbn [nsm1 shift maxl ents with_num with_ents]. rewrite app_length, LL. cbn [length]. repeat split; lia. }
  assert (TE : tend t' = tend t) by apply (sameg_tend _ _ SG).
  destruct (blank_wf kof hash eqb t' b) as (W & V).
  - apply (sameg_geo _ _ _ SG G).
  - reflexivity.
  - intros i Hi. rewrite TE in Hi. unfold at_, t'. cbn [ents with_num with_ents]. rewrite app_nth1 by (rewrite LL; lia).
    assert (FE : f end_ent = free) by reflexivity.
    rewrite nth_indep with (d' := f end_ent) by (rewrite LL; lia). rewrite map_nth.
    assert (Q : nth (Z.to_nat i) (firstn (Z.to_nat (tend t)) (ents t)) end_ent = at_ t i).
    { unfold at_. rewrite SE at 2. rewrite app_nth1 by (rewrite firstn_length; lia). reflexivity. }
    rewrite Q. unfold f. destruct (proj2 S i Hi) as [(S1 & S2)|(S1 & x & S2 & S3)].
    + destruct (Z.geb_spec (dist t i) 0); [lia|]. destruct (at_ t i) as [d v]. cbn in S1, S2. subst. reflexivity.
    + destruct (Z.geb_spec (dist t i) 0); [reflexivity|lia].
  - rewrite TE. unfold at_, t'. cbn [ents with_num with_ents]. rewrite app_nth2 by (rewrite LL; lia). rewrite LL, Nat.sub_diag. reflexivity.
  - split; [right; exists b; exact W|exact V].
Qed.

(** ** Iteration *)
Definition from (t : table E) (i : Z) : list E := evals (skipn (Z.to_nat i) (ents t)).
Lemma skipn_nth {A} (l : list A) : forall n x, nth_error l n = Some x -> skipn n l = x :: skipn (S n) l.
Proof.
  induction l as [|y l IH]; intros [|n] x H; try discriminate H; [cbn in *; congruence|]. cbn [nth_error] in H. apply (IH n x H).
Qed.
Lemma skipn_at (t : table E) i : 0 <= i < tlen t -> skipn (Z.to_nat i) (ents t) = at_ t i :: skipn (Z.to_nat (i + 1)) (ents t).
Proof. intros H. replace (Z.to_nat (i + 1)) with (S (Z.to_nat i)) by lia. apply skipn_nth, nth_at, H. Qed.
Lemma seek_ok t b : geo t b -> loose t -> forall fuel i, 0 <= i <= tend t -> tend t - i < Z.of_nat fuel ->
  exists j, seek fuel t i = Ok j /\ i <= j <= tend t /\ 0 <= dist t j /\ from t i = from t j.
Proof.
  intros G (L1 & L2). destruct (geo_facts t b G) as (G1 & G2 & G3 & G4 & G5).
  induction fuel as [|fuel IH]; intros i Hi HF; [lia|]. cbn [seek]. rewrite rdz_at by lia. cbn [bind].
  destruct (Z.ltb_spec (dist t i) 0) as [L|L].
  - assert (i <> tend t) by (intros ->; rewrite L1 in L; cbn in L; lia).
    destruct (IH (i + 1) ltac:(lia) ltac:(lia)) as (j & J1 & J2 & J3 & J4). exists j.
    split; [exact J1|]. split; [lia|]. split; [exact J3|]. rewrite <- J4. unfold from.
    rewrite (skipn_at t i) by lia. rewrite evals_cons. unfold oval.
    destruct (L2 i ltac:(lia)) as [(A & B)|(A & _)]; [rewrite B; reflexivity|lia].
  - exists i. split; [reflexivity|]. split; [lia|]. split; [lia|reflexivity].
Qed.
Lemma walk_ok t b : geo t b -> loose t -> forall fuel i, 0 <= i <= tend t -> 0 <= dist t i -> tend t - i < Z.of_nat fuel ->
  walk fuel t i = Ok (from t i).
Proof.
  intros G LO. assert (LO' := LO). destruct LO' as (L1 & L2). destruct (geo_facts t b G) as (G1 & G2 & G3 & G4 & G5).
  induction fuel as [|fuel IH]; intros i Hi HD HF; [lia|]. cbn [walk].
  destruct (Z.eqb_spec i (tend t)) as [->|N].
  - unfold from. rewrite skipn_at by lia. rewrite L1. rewrite skipn_all2 by (unfold tlen in G3; lia). reflexivity.
  - destruct (L2 i ltac:(lia)) as [(A & B)|(A & x & B)]; [lia|].
    unfold deref. rewrite rdz_at by lia. cbn [bind]. rewrite B. cbn [bind].
    destruct (seek_ok t b G LO (S (length (ents t))) (i + 1) ltac:(lia) ltac:(unfold tlen in G3; lia)) as (j & J1 & J2 & J3 & J4).
    unfold tnext. rewrite J1. cbn [bind]. rewrite (IH j) by lia. cbn [bind]. unfold from at 2. rewrite (skipn_at t i) by lia.
    rewrite evals_cons. unfold oval. rewrite B. cbn [app]. fold (from t (i + 1)). rewrite J4. reflexivity.
Qed.
Lemma items_ok t : wf t -> items t = Ok (vals t).
Proof.
  intros [->|(b & W)]; [reflexivity|]. destruct W as (G & S & _). pose proof (slots_loose kof hash t S) as LO.
  destruct (geo_facts t b G) as (G1 & G2 & G3 & G4 & G5).
  unfold items, tbegin. destruct (seek_ok t b G LO (Datatypes.S (length (ents t))) 0 ltac:(lia) ltac:(unfold tlen in G3; lia)) as (j & J1 & J2 & J3 & J4).
  rewrite J1. cbn [bind]. rewrite (walk_ok t b G LO) by (unfold tlen in G3; lia). rewrite <- J4. reflexivity.
Qed.

(** ** reserve, copies, insertion of many *)
Hypothesis HC : cap <= 2 ^ 52.
Variable fuel : nat.
Hypothesis HF : 52 <= Z.of_nat fuel.

Lemma wf_big t : wf t -> exists b, 0 <= b /\ big kof hash eqb t b.
Proof. intros [->|(b & W)]; [exists 0; split; [lia|left; auto]|exists b; split; [destruct W as ((Gb & _) & _); lia|right; assumption]]. Qed.
Lemma big_wf t b : big kof hash eqb t b -> wf t.
Proof. intros [(-> & _)|W]; [left; reflexivity|right; eauto]. Qed.
Lemma emp_good : emplace_good kof hash eqb cap fuel.
Proof. apply emplace_ok; assumption. Qed.

Lemma wf_movable t : wf t -> movable kof eqb t.
Proof.
  intros W. split; [|split; [|split]].
  - destruct W as [->|(b & W)]; [left; reflexivity|right; exists b; split; [apply W|apply (slots_loose kof hash), W]].
  - apply wf_kd, W.
  - apply wf_num, W.
  - pose proof (wf_num_small t W). lia.
Qed.
Lemma rehash_ok t nb : wf t -> 0 <= nb < two64 ->
  match rehash kof hash eqb cap fuel t nb with
  | Ok t' => wf t' /\ Permutation (vals t') (vals t)
  | Exn e => e = bad_alloc /\ (cap < 2 ^ (len (vals t) + 3) \/ cap < 4 * nb)
  | _ => False
  end.
Proof.
  intros W Hnb. pose proof (wf_movable t W) as M. pose proof (wf_num_small t W) as NS. pose proof (wf_num t W) as NV.
  unfold rehash. destruct (Z.eq_dec (Z.max nb (2 * num t)) 0) as [Q|Q].
  - unfold rehash_with. rewrite twice_small by lia. cbn [bind]. rewrite Q. cbn [Z.eqb].
    split; [left; reflexivity|]. assert (vals t = []) as -> by (destruct (vals t); [reflexivity|unfold len in NV; cbn [length] in NV; lia]).
    apply Permutation_refl.
  - destruct (next_size_spec (Z.max nb (2 * num t))) as (b & Hb & NE & S1 & S2); [unfold two64 in *; lia|].
    pose proof (rehash_with_ok kof hash eqb cap eqb_sym fuel t nb b emp_good M Hb ltac:(lia) HC Q NE) as R.
    destruct (rehash_with _ _ _ _) as [t'|e| |]; try contradiction.
    + destruct R as [(_ & ->)|(_ & (b' & _ & W') & P)]; [split; [assumption|apply Permutation_refl]|].
      split; [right; eauto|exact P].
    + destruct R as (-> & [R|R]); (split; [reflexivity|]).
      * left. eapply Z.lt_le_trans; [exact R|]. apply pow_le. unfold len. lia.
      * pose proof (pow2_gt (len (vals t)) ltac:(unfold len; lia)) as PG.
        assert (8 * (len (vals t) + 1) <= 2 ^ (len (vals t) + 3)).
        { rewrite Z.pow_add_r by (unfold len; lia). change (2 ^ 3) with 8. lia. }
        pose proof (pow2_gt b ltac:(lia)).
        destruct (Z_le_gt_dec (Z.max nb (2 * num t)) (2 ^ 63)) as [L|L].
        -- destruct (S1 L) as (A & [->|B]).
           ++ change (2 ^ 1) with 2 in *. change (2 + Z.max 4 1) with 6 in R. left. unfold len in *. lia.
           ++ assert (2 ^ b = 2 \/ 4 <= 2 ^ b).
              { destruct (Z.eq_dec b 1) as [->|]; [left; reflexivity|right]. change 4 with (2 ^ 2). apply pow_le. lia. }
              assert (R' : cap < 6 \/ cap < 2 * 2 ^ b) by (destruct (Z.max_spec 4 b); lia).
              destruct (Z.max_spec nb (2 * num t)) as [(_ & QM)|(_ & QM)]; rewrite QM in *; unfold len in *; lia.
        -- rewrite (S2 ltac:(lia)) in *. change (2 ^ 1 + Z.max 4 1) with 6 in R. left. unfold len in *. lia.
Qed.
Lemma reserve_ok t n : wf t -> 0 < n -> 2 * to_double n < two64 ->
  match reserve kof hash eqb cap fuel t n with
  | Ok t' => wf t' /\ Permutation (vals t') (vals t)
  | Exn e => e = bad_alloc /\ (cap < 2 ^ (len (vals t) + 3) \/ cap < 8 * to_double n)
  | _ => False
  end.
Proof.
  intros W Hn HT. pose proof (to_double_pos n Hn). unfold reserve, twice.
  destruct (Z.ltb_spec (2 * to_double n) two64); [|lia]. cbn [bind].
  destruct (Z.gtb_spec (2 * to_double n) (bucket_count t)).
  - pose proof (rehash_ok t (2 * to_double n) W ltac:(lia)) as R.
    destruct (rehash _ _ _ _ _ _ _) as [t'|e| |]; try contradiction; [exact R|].
    destruct R as (-> & [R|R]); (split; [reflexivity|]); [left; assumption|right; lia].
  - split; [assumption|apply Permutation_refl].
Qed.

Lemma emplace_wf t x : wf t ->
  match emplace kof hash eqb cap fuel t x with
  | Ok (t', (i, true)) => (exists b, wfb t' b) /\ Permutation (vals t') (x :: vals t) /\
      (forall y, In y (vals t) -> eqb (kof x) (kof y) = false) /\
      0 <= i < tend t' /\ e_val (at_ t' i) = Some x
  | Ok (t', (i, false)) => t' = t /\ (exists b, wfb t b) /\ 0 <= i < tend t /\
      exists y, e_val (at_ t i) = Some y /\ In y (vals t) /\ eqb (kof x) (kof y) = true
  | Exn e => e = bad_alloc /\ cap < 2 ^ (len (vals t) + 3)
  | _ => False
  end.
Proof.
  intros W. destruct (wf_big t W) as (b & Hb & B). pose proof (emp_good t b x B ltac:(lia)) as H. unfold emplace_post in H.
  destruct (emplace kof hash eqb cap fuel t x) as [(t', (i, [|]))|e| |]; try contradiction.
  - destruct H as ((b' & _ & W') & H). split; [eauto|exact H].
  - destruct H as (-> & W' & Hi & y & Hy & Q). split; [reflexivity|]. split; [eauto|]. split; [assumption|]. exists y.
    split; [assumption|]. split; [apply (val_in t b i); assumption|assumption].
  - exact H.
Qed.

(** Adding elements whose keys are new *)
Definition ins (l : list E) (x : E) : list E := if existsb (fun y => eqb (kof x) (kof y)) l then l else x :: l.
Lemma existsb_perm f (l l' : list E) : Permutation l l' -> existsb f l = existsb f l'.
Proof.
  induction 1; cbn; try congruence.
  destruct (f x), (f y); reflexivity.
Qed.
Lemma ins_perm l l' x : Permutation l l' -> Permutation (ins l x) (ins l' x).
Proof.
  intros P. unfold ins. rewrite (existsb_perm _ _ _ P). destruct (existsb _ l'); [exact P|constructor; exact P].
Qed.
Lemma ins_all_perm xs : forall l l', Permutation l l' -> Permutation (fold_left ins xs l) (fold_left ins xs l').
Proof. induction xs as [|x xs IH]; intros l l' P; [exact P|]. cbn. apply IH, ins_perm, P. Qed.
Lemma ins_len xs : forall l, (length (fold_left ins xs l) <= length xs + length l)%nat.
Proof.
  induction xs as [|x xs IH]; intros l; cbn; [lia|]. specialize (IH (ins l x)). unfold ins in *. destruct (existsb _ l); cbn in *; lia.
Qed.
Lemma emplace_ins t x : wf t ->
  match emplace kof hash eqb cap fuel t x with
  | Ok (t', _) => wf t' /\ Permutation (vals t') (ins (vals t) x)
  | Exn e => e = bad_alloc /\ cap < 2 ^ (len (vals t) + 3)
  | _ => False
  end.
Proof.
  intros W. pose proof (emplace_wf t x W) as H. destruct (emplace kof hash eqb cap fuel t x) as [(t', (i, [|]))|e| |]; try contradiction.
  - destruct H as (W' & P & N & _). split; [right; exact W'|]. rewrite P. unfold ins.
    destruct (existsb _ (vals t)) eqn:X; [|apply Permutation_refl]. apply existsb_exists in X. destruct X as (y & Hy & Q). rewrite N in Q by assumption. discriminate Q.
  - destruct H as (-> & _ & _ & y & _ & Hy & Q). split; [exact W|]. unfold ins.
    assert (existsb (fun y => eqb (kof x) (kof y)) (vals t) = true) as -> by (apply existsb_exists; eauto). apply Permutation_refl.
  - exact H.
Qed.
Lemma insert_all_ok xs : forall t, wf t ->
  match insert_all kof hash eqb cap fuel t xs with
  | Ok t' => wf t' /\ Permutation (vals t') (fold_left ins xs (vals t))
  | Exn e => e = bad_alloc /\ cap < 2 ^ (len (vals t) + len xs + 3)
  | _ => False
  end.
Proof.
  unfold insert_all. induction xs as [|x xs IH]; intros t W.
  - cbn. split; [assumption|apply Permutation_refl].
  - cbn [fold_left bind]. pose proof (emplace_ins t x W) as H.
    destruct (emplace kof hash eqb cap fuel t x) as [(t', r)|e| |]; try contradiction; cbn [bind].
    + destruct H as (W' & P). specialize (IH t' W'). destruct (fold_left _ xs (Ok t')) as [t''|e| |]; try contradiction.
      * destruct IH as (W'' & P'). split; [assumption|]. rewrite P'. apply ins_all_perm, P.
      * destruct IH as (-> & L). split; [reflexivity|]. eapply Z.lt_le_trans; [exact L|]. apply pow_le.
        apply Permutation_length in P. assert (length (ins (vals t) x) <= S (length (vals t)))%nat by (unfold ins; destruct (existsb _ _); cbn; lia).
        unfold len in *. cbn [length]. lia.
    + destruct H as (-> & L).
      assert (SK : forall l, fold_left (fun (acc : res (table E)) x =>
            let! t := acc in let! (t, _) := emplace kof hash eqb cap fuel t x in Ok t) l (Exn bad_alloc) = Exn bad_alloc)
        by (induction l; [reflexivity|cbn [fold_left bind]; assumption]).
      rewrite SK. split; [reflexivity|]. eapply Z.lt_le_trans; [exact L|]. apply pow_le. unfold len. cbn [length]. lia.
Qed.
Lemma ins_distinct xs : forall l, kdistinct kof eqb (xs ++ l) -> Permutation (fold_left ins xs l) (xs ++ l).
Proof.
  induction xs as [|x xs IH]; intros l H; [apply Permutation_refl|]. cbn [fold_left app] in *. inversion H as [|? ? H1 H2]; subst.
  assert (I : ins l x = x :: l).
  { unfold ins. destruct (existsb _ l) eqn:X; [|reflexivity]. apply existsb_exists in X. destruct X as (y & Hy & Q).
    rewrite H1 in Q by (apply in_or_app; right; assumption). discriminate Q. }
  rewrite I. rewrite IH.
  - symmetry. apply Permutation_middle.
  - apply (kdistinct_perm kof eqb eqb_sym (x :: xs ++ l)); [apply Permutation_middle|assumption].
Qed.
Lemma tcopy_ok t : wf t ->
  match tcopy kof hash eqb cap fuel t with
  | Ok t' => wf t' /\ Permutation (vals t') (vals t)
  | Exn e => e = bad_alloc /\ cap < 2 ^ (len (vals t) + 3)
  | _ => False
  end.
Proof.
  intros W. pose proof (wf_num_small t W) as NS. pose proof (wf_num t W) as NV. unfold tcopy. rewrite twice_small by lia. cbn [bind].
  assert (BC : 0 <= bucket_count t).
  { unfold bucket_count. destruct W as [->|(b & W)]; [cbn; lia|]. pose proof (geo_facts t b (proj1 W)). destruct (Z.eqb_spec (nsm1 t) 0); lia. }
  pose proof (rehash_ok tempty (Z.min (2 * num t) (bucket_count t)) (or_introl eq_refl) ltac:(unfold two64; lia)) as R.
  destruct (rehash _ _ _ _ _ _ _) as [t0|e| |]; try contradiction; cbn [bind].
  - destruct R as (W0 & P0). rewrite vals_tempty in P0. apply Permutation_sym, Permutation_nil in P0.
    rewrite (items_ok t W). cbn [bind]. pose proof (insert_all_ok (vals t) t0 W0) as I.
    destruct (insert_all _ _ _ _ _ _ _) as [t'|e| |]; try contradiction.
    + destruct I as (W' & P). split; [assumption|]. rewrite P, P0. rewrite <- (app_nil_r (vals t)) at 2. apply ins_distinct.
      rewrite app_nil_r. apply wf_kd, W.
    + rewrite P0 in I. exact I.
  - destruct R as (-> & R). split; [reflexivity|].
    pose proof (pow2_gt (len (vals t)) ltac:(unfold len; lia)). rewrite Z.pow_add_r by (unfold len; lia). change (2 ^ 3) with 8.
    destruct R as [R|R]; [change (2 ^ (len (vals tempty) + 3)) with 8 in R|]; unfold len in *; lia.
Qed.
End Ops.
