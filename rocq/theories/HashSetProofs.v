(** Sets against their reference; flooding. *)
From Coq Require Import Permutation.
From Verif Require Import Base ListAux HashModel HashArith HashTable HashOps HashSpec HashProofs.
Ltac Zify.zify_post_hook ::= Z.to_euclidean_division_equations.

Section SetProofs.
Context {K : Type}.
Variable hash : K -> Z.
Variable eqb : K -> K -> bool.
Variable cap : Z.
Variable fuel : nat.
Hypothesis LAW : lawful hash eqb.
Hypothesis MACH : machine cap fuel.

Notation idk := (fun x : K => x).
Notation wf := (wf (E := K) idk hash eqb).
Notation wfb := (wfb (E := K) idk hash eqb).
Notation kd := (kdistinct (E := K) idk eqb).
Definition srep (t : table K) (l : list K) : Prop := wf t /\ Permutation (vals t) l.

Let HC : cap <= 2 ^ 52. Proof. apply MACH. Qed.
Let HF : 52 <= Z.of_nat fuel. Proof. destruct MACH. lia. Qed.
Let lsym : forall a b, eqb a b = eqb b a. Proof. apply (law_sym _ _ LAW). Qed.
Let lhash : forall a b, eqb a b = true -> hash a = hash b. Proof. apply (law_hash _ _ LAW). Qed.

Lemma sitems_w t : wf t -> items t = Ok (vals t).
Proof. apply (items_ok idk hash eqb); [apply lsym|apply lhash]. Qed.
Lemma srep_kd t l : srep t l -> kd l.
Proof. intros (W & P). apply (kdistinct_perm idk eqb lsym (vals t)); [exact P|]. apply (wf_kd idk hash eqb), W. Qed.
Lemma srep_len t l : srep t l -> num t = Z.of_nat (length l) /\ len (vals t) = Z.of_nat (length l).
Proof. intros (W & P). rewrite (wf_num idk hash eqb t W). unfold len. rewrite (Permutation_length P). auto. Qed.
Lemma srep_in t l p : srep t l -> In p (vals t) <-> In p l.
Proof. intros (W & P). split; apply Permutation_in; [exact P|symmetry; exact P]. Qed.

Lemma member_true x l : member eqb x l = true <-> exists y, In y l /\ eqb x y = true.
Proof. unfold member. rewrite existsb_exists. reflexivity. Qed.
Lemma member_false x l : member eqb x l = false <-> forall y, In y l -> eqb x y = false.
Proof.
  split.
  - intros H y Hy. destruct (eqb x y) eqn:Q; [|reflexivity]. rewrite <- H. symmetry. apply member_true. eauto.
  - intros H. destruct (member eqb x l) eqn:M; [|reflexivity]. apply member_true in M. destruct M as (y & Hy & Q). rewrite H in Q by assumption. discriminate Q.
Qed.
Lemma member_perm x l l' : Permutation l l' -> member eqb x l = member eqb x l'.
Proof. apply existsb_perm. Qed.
Lemma member_app x l l' : member eqb x (l ++ l') = member eqb x l || member eqb x l'.
Proof. apply existsb_app. Qed.
Lemma member_eq x y l : eqb x y = true -> member eqb x l = member eqb y l.
Proof.
  intros Q. destruct (member eqb x l) eqn:A; symmetry.
  - apply member_true in A. destruct A as (z & I & Qz). apply member_true. exists z. split; [assumption|].
    apply (law_trans _ _ LAW _ x); [rewrite lsym; assumption|assumption].
  - apply member_false. intros z I. destruct (eqb y z) eqn:Qz; [|reflexivity].
    rewrite <- (proj1 (member_false x l) A z I). symmetry. apply (law_trans _ _ LAW _ y); assumption.
Qed.

Lemma sfind_rep t l x : srep t l ->
  match find idk hash eqb t x with
  | Ok (Some i) => exists b y, wfb t b /\ 0 <= i < tend t /\ e_val (at_ t i) = Some y /\ In y l /\ eqb x y = true /\ member eqb x l = true
  | Ok None => member eqb x l = false
  | _ => False
  end.
Proof.
  intros R. pose proof (find_ok idk hash eqb lhash t x (proj1 R)) as F.
  destruct (find idk hash eqb t x) as [[i|]| | |]; try contradiction.
  - destruct F as ((b & W) & Hi & y & Hv & Hin & Q). exists b, y. apply (srep_in t l _ R) in Hin.
    repeat (split; [assumption|]). apply member_true. eauto.
  - apply member_false. intros y Hy. apply F. apply (srep_in t l y R). assumption.
Qed.

Lemma set_step_ok t l o : srep t l -> sreserve_fits o ->
  match set_step eqb hash cap fuel t o with
  | Ok (out, t') => same_sout out (fst (sref_step eqb l o)) /\ srep t' (snd (sref_step eqb l o))
  | Exn e => e = bad_alloc /\
      match o with
      | SAdd _ => cap < 2 ^ (Z.of_nat (length l) + 3)
      | SReserve n => cap < 2 ^ (Z.of_nat (length l) + 3) \/ cap < 8 * to_double n
      | _ => False
      end
  | _ => False
  end.
Proof.
  intros R RF. assert (R' := R). destruct R' as (W & P). destruct (srep_len t l R) as (LN & LV). pose proof (srep_kd t l R) as KD.
  destruct o as [x|x|x| | | |n]; cbn [set_step sref_step].
  - unfold set_add. pose proof (emplace_wf idk hash eqb cap lsym lhash HC fuel HF t x W) as EM.
    destruct (emplace idk hash eqb cap fuel t x) as [(t', (i, [|]))|e| |]; try contradiction; cbn [bind fst snd].
    + destruct EM as (W' & P' & N & Hi & Hv). split; [reflexivity|]. split; [right; exact W'|].
      assert (M : member eqb x l = false) by (apply member_false; intros y Hy; apply N, (srep_in t l y R), Hy). rewrite M.
      rewrite P', P. apply Permutation_cons_append.
    + destruct EM as (-> & W' & Hi & y & Hv & Hin & Q). split; [reflexivity|].
      assert (M : member eqb x l = true) by (apply member_true; exists y; split; [apply (srep_in t l y R), Hin|assumption]). rewrite M. exact R.
    + rewrite LV in EM. exact EM.
  - unfold set_discard. pose proof (sfind_rep t l x R) as F. destruct (find idk hash eqb t x) as [[i|]| | |]; try contradiction; cbn [bind].
    + destruct F as (b & y & W' & Hi & Hv & Hin & Q & M).
      destruct (erase_ok idk hash eqb lsym t b i y W' Hi Hv) as (t' & E' & W2 & P2). rewrite E'. cbn [bind fst snd].
      split; [reflexivity|]. split; [right; eauto|]. rewrite P in P2.
      pose proof (kd_filter idk hash eqb LAW l y x KD Hin Q) as PF. 
      pose proof (Permutation_trans P2 (Permutation_sym PF)) as PP. apply Permutation_cons_inv in PP. exact PP.
    + cbn [fst snd]. split; [reflexivity|]. rewrite (filter_absent idk eqb) by (apply member_false; assumption). exact R.
  - unfold set_contains. pose proof (sfind_rep t l x R) as F. destruct (find idk hash eqb t x) as [[i|]| | |]; try contradiction; cbn [bind fst snd].
    + destruct F as (b & y & W' & Hi & Hv & Hin & Q & M). rewrite M. split; [reflexivity|exact R].
    + rewrite F. split; [reflexivity|exact R].
  - cbn [fst snd]. split; [reflexivity|]. destruct (clear_ok idk hash eqb t W) as (W' & V'). split; [exact W'|]. unfold set_clear. rewrite V'. constructor.
  - cbn [fst snd]. split; [|exact R]. rewrite LN. reflexivity.
  - rewrite (sitems_w t W). cbn [bind fst snd]. split; [exact P|exact R].
  - unfold set_reserve. destruct (Z.gtb_spec n 0) as [L|L]; cbn [bind fst snd].
    + cbn [sreserve_fits] in RF. pose proof (to_double_le n RF).
      pose proof (reserve_ok idk hash eqb cap lsym lhash HC fuel HF t n W L ltac:(unfold two64; lia)) as RS.
      destruct (reserve idk hash eqb cap fuel t n) as [t'|e| |]; try contradiction; cbn [bind].
      * destruct RS as (W' & P'). split; [reflexivity|]. split; [exact W'|]. rewrite P'. exact P.
      * rewrite LV in RS. exact RS.
    + split; [reflexivity|exact R].
Qed.
Lemma sref_step_len (l : list K) o : Z.of_nat (length (snd (sref_step eqb l o))) <=
  Z.of_nat (length l) + match o with SAdd _ => 1 | _ => 0 end.
Proof.
  assert (FL : forall f, (length (filter f l) <= length l)%nat).
  { intros f. induction l as [|p l IH]; cbn; [lia|]. destruct (f p); cbn; lia. }
  destruct o as [x|x|x| | | |n]; cbn [sref_step snd]; try lia.
  - destruct (member eqb x l); [lia|]. rewrite app_length. cbn [length]. lia.
  - specialize (FL (fun y => negb (eqb x y))). lia.
  - cbn. lia.
Qed.
Lemma set_run_ok ops : forall t l, srep t l -> Forall sreserve_fits ops ->
  match set_run eqb hash cap fuel t ops with
  | Ok outs => Forall2 same_sout outs (sref_run eqb l ops)
  | Exn e => e = bad_alloc
  | _ => False
  end.
Proof.
  induction ops as [|o ops IH]; intros t l R RF; cbn [set_run sref_run]; [constructor|].
  inversion RF as [|? ? RF1 RF2]; subst. pose proof (set_step_ok t l o R RF1) as S.
  destruct (set_step eqb hash cap fuel t o) as [(out, t')|e| |]; try contradiction; cbn [bind]; [|apply S].
  destruct S as (S1 & S2). specialize (IH t' _ S2 RF2). destruct (sref_step eqb l o) as (out', l'). cbn [fst snd] in *.
  destruct (set_run eqb hash cap fuel t' ops) as [outs|e| |]; try contradiction; cbn [bind]; [|exact IH].
  constructor; assumption.
Qed.
Lemma sinserts_cons (o : set_op K) ops : sinserts (o :: ops) = match o with SAdd _ => 1 | _ => 0 end + sinserts ops.
Proof. unfold sinserts. destruct o; cbn [filter length]; lia. Qed.
Lemma set_run_enough ops : forall t l, srep t l ->
  2 ^ (Z.of_nat (length l) + sinserts ops + 3) <= cap -> Forall (sreserve_below cap) ops ->
  exists outs, set_run eqb hash cap fuel t ops = Ok outs.
Proof.
  pose proof HC as HC'.
  induction ops as [|o ops IH]; intros t l R HB RB; cbn [set_run]; [eauto|].
  inversion RB as [|? ? RB1 RB2]; subst.
  assert (RF1 : sreserve_fits o) by (clear - RB1 HC'; destruct o; try exact I; unfold sreserve_below in RB1; unfold sreserve_fits; lia).
  pose proof (set_step_ok t l o R RF1) as S. rewrite sinserts_cons in HB. pose proof (sref_step_len l o) as SL.
  assert (I0 : 0 <= sinserts ops) by (unfold sinserts; lia).
  destruct (set_step eqb hash cap fuel t o) as [(out, t')|e| |]; try contradiction; cbn [bind].
  - destruct S as (S1 & S2).
    destruct (IH t' _ S2) as (outs & H); [|assumption|].
    + etransitivity; [|exact HB]. apply pow_le. clear - SL I0. destruct o; lia.
    + rewrite H. cbn [bind]. eauto.
  - exfalso. destruct S as (_ & S).
    assert (M : 2 ^ (Z.of_nat (length l) + 3) <= cap) by (etransitivity; [|exact HB]; apply pow_le; clear - I0; destruct o; lia).
    destruct o; try lia. cbn [sreserve_below] in RB1. rewrite to_double_small in S by lia. lia.
Qed.


(** ** Algebra *)
Lemma add_one t x : wf t ->
  match set_add hash eqb cap fuel t x with
  | Ok t' => wf t' /\ forall y, member eqb y (vals t') = member eqb y (vals t) || eqb y x
  | Exn e => e = bad_alloc
  | _ => False
  end.
Proof.
  intros W. pose proof (set_step_ok t (vals t) (SAdd x) (conj W (Permutation_refl _)) I) as S. cbn [set_step] in S.
  destruct (set_add hash eqb cap fuel t x) as [t'|e| |]; try contradiction; cbn [bind] in S; [|apply S].
  destruct S as (_ & W' & P). split; [exact W'|]. intros y. rewrite (member_perm y _ _ P). cbn [sref_step snd].
  destruct (member eqb x (vals t)) eqn:M.
  - destruct (eqb y x) eqn:Q; [rewrite (member_eq y x) by assumption; rewrite M; reflexivity|rewrite orb_false_r; reflexivity].
  - rewrite member_app. cbn. rewrite orb_false_r. reflexivity.
Qed.
Lemma add_present t x : wf t -> member eqb x (vals t) = true -> set_add hash eqb cap fuel t x = Ok t.
Proof.
  intros W M. unfold set_add. pose proof (emplace_wf idk hash eqb cap lsym lhash HC fuel HF t x W) as EM.
  apply member_true in M. destruct M as (y & Hy & Q).
  destruct (emplace idk hash eqb cap fuel t x) as [(t', (i, [|]))|e| |] eqn:ES; try contradiction; cbn [bind].
  - exfalso. destruct EM as (_ & _ & N & _). rewrite (N y Hy) in Q. discriminate Q.
  - destruct EM as (-> & _). reflexivity.
  - exfalso. (* found before anything can fail *)
    clear EM. destruct fuel as [|f]; [pose proof HF; cbn in *; lia|]. cbn [emplace] in ES.
    destruct W as [->|(b & W)]; [destruct Hy|].
    pose proof (lookup_ok idk hash eqb lhash t b x (proj1 W) (proj1 (proj2 W)) (proj1 (proj2 (proj2 W)))) as LK.
    destruct (lookup idk hash eqb t x) as [[i|(i, d)]| | |]; try contradiction; cbn [bind] in ES; [discriminate ES|].
    destruct LK as (_ & _ & AB). rewrite (AB y Hy) in Q. discriminate Q.
Qed.
Lemma member_filter x y l : member eqb y (filter (fun z => negb (eqb x z)) l) = member eqb y l && negb (eqb x y).
Proof.
  induction l as [|z l IH]; [reflexivity|]. cbn [filter]. unfold member in *. cbn [existsb].
  destruct (eqb y z) eqn:Q.
  - assert (QQ : eqb x z = eqb x y).
    { destruct (eqb x y) eqn:A; [apply (law_trans _ _ LAW _ y); assumption|].
      destruct (eqb x z) eqn:B; [|reflexivity]. rewrite <- A. symmetry. apply (law_trans _ _ LAW _ z); [assumption|rewrite lsym; assumption]. }
    rewrite QQ. destruct (eqb x y); cbn [negb existsb].
    + rewrite IH. cbn [negb]. rewrite !andb_false_r. reflexivity.
    + rewrite Q. reflexivity.
  - destruct (eqb x z); cbn [negb existsb]; [|rewrite Q]; rewrite IH; reflexivity.
Qed.
Lemma discard_one t x : wf t ->
  exists t', set_discard hash eqb t x = Ok t' /\ wf t' /\
    forall y, member eqb y (vals t') = member eqb y (vals t) && negb (eqb x y).
Proof.
  intros W. pose proof (set_step_ok t (vals t) (SDiscard x) (conj W (Permutation_refl _)) I) as S. cbn [set_step] in S.
  destruct (set_discard hash eqb t x) as [t'|e| |]; try contradiction; cbn [bind] in S; [|destruct S as (_ & [])].
  destruct S as (_ & W' & P). exists t'. split; [reflexivity|]. split; [exact W'|]. intros y. rewrite (member_perm y _ _ P). cbn [sref_step snd].
  apply member_filter.
Qed.
Lemma add_all_ok l : forall t, wf t ->
  match add_all hash eqb cap fuel t l with
  | Ok t' => wf t' /\ forall y, member eqb y (vals t') = member eqb y (vals t) || member eqb y l
  | Exn e => e = bad_alloc
  | _ => False
  end.
Proof.
  unfold add_all. induction l as [|x l IH]; intros t W; cbn [fold_left bind].
  - split; [assumption|]. intros y. cbn. rewrite orb_false_r. reflexivity.
  - pose proof (add_one t x W) as A. destruct (set_add hash eqb cap fuel t x) as [t'|e| |]; try contradiction.
    + destruct A as (W' & M). specialize (IH t' W').
      destruct (fold_left _ l (Ok t')) as [t''|e| |]; try contradiction; [|exact IH].
      destruct IH as (W'' & M'). split; [assumption|]. intros y. rewrite M', M. cbn. rewrite orb_assoc. reflexivity.
    + subst e. assert (SK : forall l, fold_left (fun (acc : res (table K)) x => let! t := acc in set_add hash eqb cap fuel t x) l (Exn bad_alloc) = Exn bad_alloc)
        by (clear; induction l; [reflexivity|cbn [fold_left bind]; assumption]).
      rewrite SK. reflexivity.
Qed.
Lemma discard_all_ok l : forall t, wf t ->
  exists t', discard_all hash eqb t l = Ok t' /\ wf t' /\
    forall y, member eqb y (vals t') = member eqb y (vals t) && negb (member eqb y l).
Proof.
  unfold discard_all. induction l as [|x l IH]; intros t W; cbn [fold_left bind].
  - exists t. split; [reflexivity|]. split; [assumption|]. intros y. cbn. rewrite andb_true_r. reflexivity.
  - destruct (discard_one t x W) as (t' & D & W' & M). rewrite D. destruct (IH t' W') as (t'' & D' & W'' & M').
    exists t''. split; [exact D'|]. split; [assumption|]. intros y. rewrite M', M. cbn. rewrite negb_orb, andb_assoc, (lsym x y). reflexivity.
Qed.

Lemma self_loop_same f t b : wfb t b -> (forall x, In x (vals t) -> f t x = Ok t) ->
  forall steps i, 0 <= i <= tend t -> 0 <= dist t i -> tend t - i < Z.of_nat steps ->
  self_loop steps f t i (tend t) = Ok t.
Proof.
  intros W HFF. destruct (geo_facts t b (proj1 W)) as (G1 & G2 & G3 & G4 & G5).
  pose proof (slots_loose idk hash t (proj1 (proj2 W))) as LO.
  induction steps as [|n IH]; intros i Hi HD HN; [lia|]. cbn [self_loop].
  destruct (Z.eqb_spec i (tend t)) as [->|NE]; [reflexivity|].
  destruct (seek_ok t b (proj1 W) LO (S (length (ents t))) (i + 1) ltac:(lia) ltac:(unfold tlen in G3; lia)) as (j & J1 & J2 & J3 & J4).
  unfold tnext. rewrite J1. cbn [bind].
  destruct (proj2 LO i ltac:(lia)) as [(A & B)|(A & x & B)]; [lia|].
  rewrite (deref_ok idk hash eqb t b i x W) by (assumption || lia). cbn [bind].
  rewrite HFF by (apply (val_in idk hash eqb t b i x W); [lia|assumption]). cbn [bind]. apply IH; lia.
Qed.
Lemma self_iter_same f t : wf t -> (forall x, In x (vals t) -> f t x = Ok t) -> self_iter f t = Ok t.
Proof.
  intros [->|(b & W)] HFF; [reflexivity|]. unfold self_iter, tbegin.
  destruct (geo_facts t b (proj1 W)) as (G1 & G2 & G3 & G4 & G5). pose proof (slots_loose idk hash t (proj1 (proj2 W))) as LO.
  destruct (seek_ok t b (proj1 W) LO (S (length (ents t))) 0 ltac:(lia) ltac:(unfold tlen in G3; lia)) as (j & J1 & J2 & J3 & J4).
  rewrite J1. cbn [bind]. apply (self_loop_same f t b W HFF); try lia. unfold tlen in G3. lia.
Qed.
Lemma self_add t : wf t -> self_iter (set_add hash eqb cap fuel) t = Ok t.
Proof.
  intros W. apply self_iter_same; [assumption|]. intros x Hx. apply add_present; [assumption|]. apply member_true. exists x.
  split; [assumption|]. apply (law_refl _ _ LAW).
Qed.

(** What an argument list contributes; [own] is what the set itself contains *)
Notation arg_member := (arg_member eqb).
Lemma update_ok args : forall t, wf t ->
  match set_update hash eqb cap fuel t args with
  | Ok t' => wf t' /\ forall y, member eqb y (vals t') =
      member eqb y (vals t) || existsb (arg_member (fun _ => false) y) args
  | Exn e => e = bad_alloc
  | _ => False
  end.
Proof.
  unfold set_update. induction args as [|a args IH]; intros t W; cbn [fold_left bind].
  - split; [assumption|]. intros y. cbn. rewrite orb_false_r. reflexivity.
  - assert (SK : forall l, fold_left (fun (acc : res (table K)) a => let! t := acc in
         match a with Values l => add_all hash eqb cap fuel t l | Self => self_iter (set_add hash eqb cap fuel) t end) l (Exn bad_alloc) = Exn bad_alloc)
        by (clear; induction l; [reflexivity|cbn [fold_left bind]; assumption]).
    destruct a as [l|].
    + pose proof (add_all_ok l t W) as A. destruct (add_all hash eqb cap fuel t l) as [t'|e| |]; try contradiction.
      * destruct A as (W' & M). specialize (IH t' W'). destruct (fold_left _ args (Ok t')) as [t''|e| |]; try contradiction; [|exact IH].
        destruct IH as (W'' & M'). split; [assumption|]. intros y. rewrite M', M. cbn [existsb arg_member]. rewrite orb_assoc. reflexivity.
      * subst e. rewrite SK. reflexivity.
    + rewrite (self_add t W). exact (IH t W).
Qed.
Lemma diff_update_ok ls : forall t, wf t ->
  exists t', set_difference_update hash eqb t (map Values ls) = Ok t' /\ wf t' /\
    forall y, member eqb y (vals t') = member eqb y (vals t) && negb (existsb (member eqb y) ls).
Proof.
  unfold set_difference_update. induction ls as [|l ls IH]; intros t W; cbn [map fold_left bind].
  - exists t. split; [reflexivity|]. split; [assumption|]. intros y. cbn. rewrite andb_true_r. reflexivity.
  - destruct (discard_all_ok l t W) as (t' & D & W' & M). rewrite D. destruct (IH t' W') as (t'' & D' & W'' & M').
    exists t''. split; [exact D'|]. split; [assumption|]. intros y. rewrite M', M. cbn [existsb]. rewrite negb_orb, andb_assoc. reflexivity.
Qed.

Lemma union_ok t args : wf t ->
  match set_union hash eqb cap fuel t args with
  | Ok t' => wf t' /\ forall y, member eqb y (vals t') =
      member eqb y (vals t) || existsb (arg_member (fun _ => false) y) args
  | Exn e => e = bad_alloc
  | _ => False
  end.
Proof.
  intros W. unfold set_union. pose proof (tcopy_ok idk hash eqb cap lsym lhash HC fuel HF t W) as CP.
  destruct (tcopy idk hash eqb cap fuel t) as [c|e| |]; try contradiction; cbn [bind]; [|apply CP].
  destruct CP as (WC & PC).
  assert (G : forall args c, wf c -> (forall y, member eqb y (vals t) = true -> member eqb y (vals c) = true) ->
    match fold_left (fun (acc : res (table K)) a => let! c := acc in let! l := values_of t a in add_all hash eqb cap fuel c l) args (Ok c) with
    | Ok t' => wf t' /\ forall y, member eqb y (vals t') = member eqb y (vals c) || existsb (arg_member (fun _ => false) y) args
    | Exn e => e = bad_alloc
    | _ => False
    end).
  { clear args c WC PC. induction args as [|a args IH]; intros c WC SUB; cbn [fold_left bind].
    - split; [assumption|]. intros y. cbn. rewrite orb_false_r. reflexivity.
    - assert (SK : forall l, fold_left (fun (acc : res (table K)) a => let! c := acc in let! l := values_of t a in add_all hash eqb cap fuel c l) l (Exn bad_alloc) = Exn bad_alloc)
        by (clear; induction l; [reflexivity|cbn [fold_left bind]; assumption]).
      assert (VL : exists l, values_of t a = Ok l /\ forall y, member eqb y (vals c) || member eqb y l = member eqb y (vals c) || arg_member (fun _ => false) y a).
      { destruct a as [l|]; cbn [values_of arg_member]; [eauto|]. rewrite (sitems_w t W). exists (vals t). split; [reflexivity|].
        intros y. specialize (SUB y). destruct (member eqb y (vals t)); [rewrite SUB by reflexivity; reflexivity|reflexivity]. }
      destruct VL as (l & -> & VM). cbn [bind]. pose proof (add_all_ok l c WC) as A.
      destruct (add_all hash eqb cap fuel c l) as [c'|e| |]; try contradiction.
      + destruct A as (W' & M). specialize (IH c' W'). 
        assert (SUB' : forall y, member eqb y (vals t) = true -> member eqb y (vals c') = true) by (intros y Hy; rewrite M, SUB by assumption; reflexivity).
        specialize (IH SUB'). destruct (fold_left _ args (Ok c')) as [t''|e| |]; try contradiction; [|exact IH].
        destruct IH as (W'' & M'). split; [assumption|]. intros y. rewrite M', M, VM. cbn [existsb]. rewrite orb_assoc. reflexivity.
      + subst e. rewrite SK. reflexivity. }
  specialize (G args c WC). assert (SUB : forall y, member eqb y (vals t) = true -> member eqb y (vals c) = true) by (intros y; rewrite (member_perm y _ _ PC); auto).
  specialize (G SUB). destruct (fold_left _ args (Ok c)) as [t'|e| |]; try contradiction; [|exact G].
  destruct G as (W' & M). split; [assumption|]. intros y. rewrite M, (member_perm y _ _ PC). reflexivity.
Qed.
Lemma difference_ok t args : wf t ->
  match set_difference hash eqb cap fuel t args with
  | Ok t' => wf t' /\ forall y, member eqb y (vals t') =
      member eqb y (vals t) && negb (existsb (arg_member (fun y => member eqb y (vals t)) y) args)
  | Exn e => e = bad_alloc
  | _ => False
  end.
Proof.
  intros W. unfold set_difference. pose proof (tcopy_ok idk hash eqb cap lsym lhash HC fuel HF t W) as CP.
  destruct (tcopy idk hash eqb cap fuel t) as [c|e| |]; try contradiction; cbn [bind]; [|apply CP].
  destruct CP as (WC & PC).
  assert (G : forall args c, wf c -> exists t', 
    fold_left (fun (acc : res (table K)) a => let! c := acc in let! l := values_of t a in discard_all hash eqb c l) args (Ok c) = Ok t' /\
    wf t' /\ forall y, member eqb y (vals t') = member eqb y (vals c) && negb (existsb (arg_member (fun y => member eqb y (vals t)) y) args)).
  { clear args c WC PC. induction args as [|a args IH]; intros c WC; cbn [fold_left bind].
    - exists c. split; [reflexivity|]. split; [assumption|]. intros y. cbn. rewrite andb_true_r. reflexivity.
    - assert (VL : exists l, values_of t a = Ok l /\ forall y, member eqb y l = arg_member (fun y => member eqb y (vals t)) y a).
      { destruct a as [l|]; cbn [values_of arg_member]; [eauto|]. rewrite (sitems_w t W). eauto. }
      destruct VL as (l & -> & VM). cbn [bind]. destruct (discard_all_ok l c WC) as (c' & D & W' & M). rewrite D.
      destruct (IH c' W') as (t' & D' & W'' & M'). exists t'. split; [exact D'|]. split; [assumption|]. intros y.
      rewrite M', M. cbn [existsb]. rewrite negb_orb, andb_assoc, VM. reflexivity. }
  destruct (G args c WC) as (t' & -> & W' & M). split; [assumption|]. intros y. rewrite M, (member_perm y _ _ PC). reflexivity.
Qed.

(** Pigeonhole for sets, by the one for dictionaries *)
Lemma spigeon : forall l1 l2 : list K, kd l1 -> kd l2 -> length l1 = length l2 ->
  (forall p, In p l1 -> member eqb p l2 = true) -> forall q, In q l2 -> member eqb q l1 = true.
Proof.
  induction l1 as [|p l1 IH]; intros l2 K1 K2 LL H q Hq.
  - destruct l2; [destruct Hq|discriminate LL].
  - inversion K1 as [|? ? N1 K1']; subst.
    pose proof (H p (or_introl eq_refl)) as H0. apply member_true in H0. destruct H0 as (q0 & I0 & Q0).
    destruct (in_split _ _ I0) as (a & c & EQ).
    assert (P : Permutation l2 (q0 :: a ++ c)) by (rewrite EQ; symmetry; apply Permutation_middle).
    assert (K2' := kdistinct_perm idk eqb lsym _ _ P K2). inversion K2' as [|? ? N2 K2'']; subst x l.
    apply (Permutation_in _ P) in Hq. unfold member. cbn [existsb]. fold (member eqb q l1). destruct Hq as [<-|Hq]; [rewrite lsym, Q0; reflexivity|].
    apply Permutation_length in P. cbn [length] in *.
    rewrite (IH (a ++ c) K1' K2'' ltac:(lia)); [apply orb_true_r| |assumption].
    intros p' Hp'. pose proof (H p' (or_intror Hp')) as H1. rewrite EQ in H1. rewrite member_app in *. unfold member in H1 at 2. cbn [existsb] in H1.
    fold (member eqb p' c) in H1. assert (QN : eqb p' q0 = false).
    { destruct (eqb p' q0) eqn:QQ; [|reflexivity]. specialize (N1 p' Hp'). cbn in N1.
      rewrite (law_trans _ _ LAW _ q0 _ Q0) in N1; [discriminate N1|]. rewrite lsym. assumption. }
    rewrite QN in H1. exact H1.
Qed.
Lemma set_eq_ok t1 t2 : wf t1 -> wf t2 ->
  exists b, set_eq hash eqb t1 t2 = Ok b /\ (b = true <-> forall y, member eqb y (vals t1) = member eqb y (vals t2)).
Proof.
  intros W1 W2. pose proof (wf_kd idk hash eqb t1 W1) as K1. pose proof (wf_kd idk hash eqb t2 W2) as K2.
  pose proof (wf_num idk hash eqb t1 W1) as N1. pose proof (wf_num idk hash eqb t2 W2) as N2. unfold len in *.
  assert (LOOP : forall l, exists b, set_eq_loop hash eqb l t2 = Ok b /\ (b = true <-> forall x, In x l -> member eqb x (vals t2) = true)).
  { induction l as [|x l IH]; cbn [set_eq_loop].
    - exists true. split; [reflexivity|]. split; [intros _ x []|reflexivity].
    - pose proof (set_step_ok t2 (vals t2) (SContains x) (conj W2 (Permutation_refl _)) I) as S. cbn [set_step] in S.
      destruct (set_contains hash eqb t2 x) as [c|e| |]; try contradiction; cbn [bind] in *; [|destruct S as (_ & [])].
      destruct S as (S & _). cbn [sref_step fst same_sout] in S. injection S as ->.
      destruct (member eqb x (vals t2)) eqn:M.
      + destruct IH as (b & IH & Q). exists b. split; [exact IH|]. rewrite Q. split; [intros H y [<-|Hy]; [assumption|apply H; assumption]|intros H y Hy; apply H; right; assumption].
      + exists false. split; [reflexivity|]. split; [discriminate|]. intros H. rewrite H in M by (left; reflexivity). discriminate M. }
  assert (SUBL : forall l1 l2 : list K, kd l1 -> kd l2 -> (forall x, In x l1 -> member eqb x l2 = true) -> (length l1 <= length l2)%nat).
  { clear - LAW lsym. induction l1 as [|p l1 IH]; intros l2 K1 K2 H; [cbn; lia|]. inversion K1 as [|? ? N1 K1']; subst.
    pose proof (H p (or_introl eq_refl)) as H0. apply member_true in H0. destruct H0 as (q0 & I0 & Q0).
    destruct (in_split _ _ I0) as (a & c & EQ).
    assert (P : Permutation l2 (q0 :: a ++ c)) by (rewrite EQ; symmetry; apply Permutation_middle).
    assert (K2' := kdistinct_perm idk eqb lsym _ _ P K2). inversion K2' as [|? ? N2 K2'']; subst x l.
    rewrite (Permutation_length P). cbn [length]. apply le_n_S. apply IH; [assumption|assumption|].
    intros p' Hp'. pose proof (H p' (or_intror Hp')) as H1. rewrite (member_perm p' _ _ P) in H1. unfold member in H1. cbn [existsb] in H1.
    fold (member eqb p' (a ++ c)) in H1. assert (QN : eqb p' q0 = false).
    { destruct (eqb p' q0) eqn:QQ; [|reflexivity]. specialize (N1 p' Hp'). cbn in N1.
      rewrite (law_trans _ _ LAW _ q0 _ Q0) in N1; [discriminate N1|]. rewrite lsym. assumption. }
    rewrite QN in H1. exact H1. }
  assert (INC : forall t t' : table K, (forall y, member eqb y (vals t) = member eqb y (vals t')) -> forall x, In x (vals t) -> member eqb x (vals t') = true).
  { intros t t' H x Hx. rewrite <- H. apply member_true. exists x. split; [assumption|apply (law_refl _ _ LAW)]. }
  unfold set_eq. destruct (Z.eqb_spec (num t1) (num t2)) as [Q|Q]; cbn [negb].
  - destruct (Z.eqb_spec (num t1) 0) as [Z0|Z0].
    + exists true. split; [reflexivity|]. split; [|reflexivity]. intros _ k.
      assert (vals t1 = []) as -> by (destruct (vals t1); [reflexivity|cbn [length] in N1; lia]).
      assert (vals t2 = []) as -> by (destruct (vals t2); [reflexivity|cbn [length] in N2; lia]). reflexivity.
    + rewrite (sitems_w t1 W1). cbn [bind]. destruct (LOOP (vals t1)) as (b & LP & LQ). exists b. split; [exact LP|]. rewrite LQ. split.
      * intros H y.
        assert (BACK : forall q, In q (vals t2) -> member eqb q (vals t1) = true) by (apply spigeon; [assumption|assumption|lia|assumption]).
        destruct (member eqb y (vals t1)) eqn:A; symmetry.
        -- apply member_true in A. destruct A as (z & Iz & Qz). rewrite (member_eq y z) by assumption. apply H, Iz.
        -- apply member_false. intros z Iz. destruct (eqb y z) eqn:Qz; [|reflexivity]. specialize (BACK z Iz). rewrite <- (member_eq y z) in BACK by assumption. congruence.
      * intros H. apply INC, H.
  - exists false. split; [reflexivity|]. split; [discriminate|]. intros H. exfalso.
    pose proof (SUBL _ _ K1 K2 (INC t1 t2 H)). pose proof (SUBL _ _ K2 K1 (INC t2 t1 (fun y => eq_sym (H y)))). lia.
Qed.

Lemma set_make_ok l : Z.of_nat (length l) < 2 ^ 53 ->
  match set_make hash eqb cap fuel l with
  | Ok t => wf t /\ forall y, member eqb y (vals t) = member eqb y l
  | Exn e => e = bad_alloc
  | _ => False
  end.
Proof.
  intros HL. unfold set_make.
  assert (S : match set_reserve hash eqb cap fuel tempty (Z.of_nat (length l)) with Ok t => wf t /\ vals t = [] | Exn e => e = bad_alloc | _ => False end).
  { unfold set_reserve. destruct (Z.gtb_spec (Z.of_nat (length l)) 0) as [L|L]; [|split; [left; reflexivity|reflexivity]].
    pose proof (reserve_ok (E := K) idk hash eqb cap lsym lhash HC fuel HF tempty _ (or_introl eq_refl) L) as R.
    rewrite to_double_small in R by assumption. specialize (R ltac:(unfold two64; lia)).
    destruct (reserve idk hash eqb cap fuel tempty (Z.of_nat (length l))) as [t'|e| |]; try contradiction; [|apply R].
    destruct R as (W & P). split; [exact W|]. apply Permutation_nil. symmetry. exact P. }
  destruct (set_reserve hash eqb cap fuel tempty (Z.of_nat (length l))) as [t|e| |]; try contradiction; cbn [bind]; [|exact S].
  destruct S as (W & V). pose proof (add_all_ok l t W) as A. unfold add_all in A.
  destruct (fold_left _ l (Ok t)) as [t'|e| |]; try contradiction; [|exact A].
  destruct A as (W' & M). split; [assumption|]. intros y. rewrite M, V. reflexivity.
Qed.
Lemma sreachable t : reachable_set hash eqb cap fuel t -> wf t.
Proof.
  induction 1 as [|t o out t' H IH RF ST|l t HL E|t args t' H IH E|t ls t' H IH E|t args t' H IH E|t args t' H IH E]; [left; reflexivity|..].
  - pose proof (set_step_ok t (vals t) o (conj IH (Permutation_refl _)) RF) as S. rewrite ST in S. apply S.
  - pose proof (set_make_ok l HL) as S. rewrite E in S. apply S.
  - pose proof (update_ok args t IH) as S. rewrite E in S. apply S.
  - destruct (diff_update_ok ls t IH) as (t1 & E1 & W & _). rewrite E in E1. injection E1 as <-. exact W.
  - pose proof (union_ok t args IH) as S. rewrite E in S. apply S.
  - pose proof (difference_ok t args IH) as S. rewrite E in S. apply S.
Qed.
End SetProofs.

(** ** Flooding *)
Section Flood.
Context {E K : Type}.
Variable kof : E -> K.
Variable hash : K -> Z.
Variable eqb : K -> K -> bool.

(** Many values with the same home need a large table. *)
Lemma evals_slots_home (t : table E) b h : geo t b -> slots kof hash t ->
  forall l, NoDup l -> (forall i, In i l -> 0 <= i < tend t /\ exists x, e_val (at_ t i) = Some x /\ home hash t (kof x) = h) ->
  Z.of_nat (length l) <= maxl t.
Proof.
  intros G S l ND HI. destruct (geo_facts t b G) as (G1 & G2 & G3 & G4 & G5).
  assert (INC : incl l (map (fun n => h + Z.of_nat n) (seq 0 (Z.to_nat (maxl t))))).
  { intros i Hi. destruct (HI i Hi) as (H1 & x & Hx & Hh). destruct (slot_val_lt kof hash t b G S i x ltac:(lia) Hx) as (J1 & J2 & J3).
    apply in_map_iff. exists (Z.to_nat (dist t i)). split; [lia|]. apply in_seq. lia. }
  apply NoDup_incl_length in INC; [|exact ND]. rewrite map_length, seq_length in INC. lia.
Qed.
(** The positions of the values of a list of entries *)
Lemma positions (l : list (ent E)) : exists ps, NoDup ps /\ length ps = length (evals l) /\
  forall n, In n ps -> (n < length l)%nat /\ exists x, e_val (nth n l end_ent) = Some x /\ In x (evals l).
Proof.
  induction l as [|e l IH].
  - exists []. split; [constructor|]. split; [reflexivity|]. intros n [].
  - destruct IH as (ps & ND & LN & H).
    assert (ND' : NoDup (map S ps)) by (apply FinFun.Injective_map_NoDup; [intros a c Q; lia|assumption]).
    destruct (e_val e) as [x|] eqn:X.
    + exists (0%nat :: map S ps). split; [constructor; [intros I; apply in_map_iff in I; destruct I as (n & Q & _); discriminate Q|assumption]|].
      split; [cbn [length]; rewrite map_length, LN, evals_cons; unfold oval; rewrite X; reflexivity|].
      intros n [<-|Hn].
      * split; [cbn; lia|]. exists x. split; [exact X|]. rewrite evals_cons. unfold oval. rewrite X. left. reflexivity.
      * apply in_map_iff in Hn. destruct Hn as (m & <- & Hm). destruct (H m Hm) as (A & y & B & C). cbn [length nth]. split; [lia|].
        exists y. split; [assumption|]. rewrite evals_cons. apply in_or_app. right. assumption.
    + exists (map S ps). split; [assumption|]. split; [rewrite map_length, LN, evals_cons; unfold oval; rewrite X; reflexivity|].
      intros n Hn. apply in_map_iff in Hn. destruct Hn as (m & <- & Hm). destruct (H m Hm) as (A & y & B & C). cbn [length nth]. split; [lia|].
      exists y. split; [assumption|]. rewrite evals_cons. apply in_or_app. right. assumption.
Qed.
Lemma flood t h : wf kof hash eqb t -> (forall x, In x (vals t) -> home hash t (kof x) = h) -> (4 < length (vals t))%nat ->
  2 ^ Z.of_nat (length (vals t)) <= bucket_count t /\ Z.of_nat (length (vals t)) <= 51.
Proof.
  intros [->|(b & W)] HH HL; [cbn in HL; lia|]. destruct W as (G & S & O & KD & NV & NL).
  destruct (geo_facts t b G) as (G1 & G2 & G3 & G4 & G5).
  destruct (positions (ents t)) as (ps & ND & LN & H).
  assert (B : Z.of_nat (length (map Z.of_nat ps)) <= maxl t).
  { apply (evals_slots_home t b h G S).
    - apply FinFun.Injective_map_NoDup; [intros a c Q; lia|assumption].
    - intros i Hi. apply in_map_iff in Hi. destruct Hi as (n & <- & Hn). destruct (H n Hn) as (A & x & X & I).
      assert (AT : e_val (at_ t (Z.of_nat n)) = Some x) by (unfold at_; rewrite Nat2Z.id; exact X).
      destruct (slot_val_lt kof hash t b G S (Z.of_nat n) x ltac:(unfold tlen; lia) AT) as (J1 & _).
      split; [assumption|]. exists x. split; [assumption|apply HH; exact I]. }
  rewrite map_length, LN in B. fold (vals t) in B. destruct G as (Gb & _ & _ & GM & _). rewrite GM in B.
  assert (Bb : Z.of_nat (length (vals t)) <= b) by lia. split; [|lia].
  unfold bucket_count. rewrite G5. destruct (Z.eqb_spec (2 ^ b - 1) 0); [lia|]. pose proof (pow_le (Z.of_nat (length (vals t))) b ltac:(lia)). lia.
Qed.
End Flood.
