(** Proofs for the loops: the compiled run follows the strict Python run. *)
From Coq Require Import List ZArith Bool PeanoNat Lia.
From Verif Require Import Base ItAst ItModel ItSpec.
Import ListNotations.
Local Open Scope nat_scope.

(** ** Small facts *)

Lemma upd_same {A} (f : nat -> A) k v : upd f k v k = v.
Proof. unfold upd. now rewrite Nat.eqb_refl. Qed.

Lemma upd_other {A} (f : nat -> A) k v x : x <> k -> upd f k v x = f x.
Proof. intro H. unfold upd. now apply Nat.eqb_neq in H as ->. Qed.

Lemma lset_length {A} (xs : list A) k v : length (lset xs k v) = length xs.
Proof. revert k; induction xs; intros [|k]; cbn; auto. Qed.

Lemma lset_same {A} (xs : list A) k v : k < length xs -> nth_error (lset xs k v) k = Some v.
Proof. revert k; induction xs; intros [|k] H; cbn in *; try lia; auto. apply IHxs; lia. Qed.

Lemma lset_other {A} (xs : list A) k v j : j <> k -> nth_error (lset xs k v) j = nth_error xs j.
Proof. revert k j; induction xs; intros [|k] [|j] H; cbn; auto; try lia. Qed.

Lemma nth_error_firstn_lt {A} (xs : list A) n j : j < n -> nth_error (firstn n xs) j = nth_error xs j.
Proof. revert n j; induction xs; intros [|n] [|j] H; cbn; auto; try lia. apply IHxs; lia. Qed.

Lemma nth_error_firstn_ge {A} (xs : list A) n j : n <= j -> nth_error (firstn n xs) j = None.
Proof. intro H. apply nth_error_None. rewrite firstn_length. lia. Qed.

(** ** Relations *)

(** A Python iterator and the pair of pointers that stands for it. *)
Definition irel (p : pst) (c : cst) (i : piter) (d : citer) : Prop :=
  match i with
  | PDead => ci_first d = ci_last d
  | PFwd l k v =>
      v <= pver p l /\ ci_l d = l /\ ci_rev d = false /\
      (v = pver p l -> ci_buf d = cbuf (clists c l) /\ ci_first d = k /\
                       ci_last d = length (citems (clists c l)) /\ k <= length (citems (clists c l)))
  | PRev l k v =>
      v <= pver p l /\ ci_l d = l /\ ci_rev d = true /\
      (v = pver p l -> ci_buf d = cbuf (clists c l) /\ ci_first d = k /\
                       ci_last d = 0 /\ k <= length (citems (clists c l)))
  end.

Record INV (p : pst) (c : cst) : Prop := mkINV {
  i_len : forall l, length (citems (clists c l)) = length (plists p l);
  i_item : forall l k v, nth_error (plists p l) k = Some v ->
             exists cv, nth_error (citems (clists c l)) k = Some cv /\ cload c cv = Some v;
  i_own : forall l k l' k' b, nth_error (citems (clists c l)) k = Some (CBox b) ->
             nth_error (citems (clists c l')) k' = Some (CBox b) -> l = l' /\ k = k';
  i_cell : forall b, cncell c <= b -> ccells c b = None;
  i_buf : forall l, cbuf (clists c l) < cnbuf c;
  i_vars : forall v, pvars p v = cvars c v;
  i_varb : forall v o, pvars p v = Some o -> o < pnobj p;
  i_n : pnobj p = cnobj c;
  i_out : pout p = cout c;
  i_objs : forall o, o < pnobj p -> irel p c (pobjs p o) (cobjs c o) }.

(** What a later state keeps of an earlier one. *)
Record EXT (p : pst) (c : cst) (p' : pst) (c' : cst) : Prop := mkEXT {
  e_set : forall l k, pset p l k <= pset p' l k;
  e_slot : forall l k cv v, pset p l k = pset p' l k ->
             nth_error (citems (clists c l)) k = Some cv -> nth_error (plists p l) k = Some v ->
             nth_error (citems (clists c' l)) k = Some cv /\ nth_error (plists p' l) k = Some v;
  e_ver : forall l, pver p l <= pver p' l;
  e_same : forall l, pver p l = pver p' l ->
             cbuf (clists c' l) = cbuf (clists c l) /\
             length (citems (clists c' l)) = length (citems (clists c l));
  e_n : pnobj p <= pnobj p';
  e_end : forall o, o < pnobj p -> pi_stale p' (pobjs p' o) = false ->
             pi_stale p (pobjs p o) = false /\
             (pi_at p (pobjs p o) = None -> pi_at p' (pobjs p' o) = None) }.

Lemma EXT_refl p c : EXT p c p c.
Proof. constructor; auto. Qed.

Lemma EXT_trans p c p1 c1 p2 c2 : EXT p c p1 c1 -> EXT p1 c1 p2 c2 -> EXT p c p2 c2.
Proof.
  intros A B. constructor.
  - intros l k. pose proof (e_set _ _ _ _ A l k). pose proof (e_set _ _ _ _ B l k). lia.
  - intros l k cv v E H1 H2. pose proof (e_set _ _ _ _ A l k). pose proof (e_set _ _ _ _ B l k).
    destruct (e_slot _ _ _ _ A l k cv v) as [H3 H4]; auto; try lia.
    apply (e_slot _ _ _ _ B l k cv v); auto; lia.
  - intros l. pose proof (e_ver _ _ _ _ A l). pose proof (e_ver _ _ _ _ B l). lia.
  - intros l E. pose proof (e_ver _ _ _ _ A l). pose proof (e_ver _ _ _ _ B l).
    destruct (e_same _ _ _ _ A l) as [H1 H2]; [lia|].
    destruct (e_same _ _ _ _ B l) as [H3 H4]; [lia|]. split; congruence.
  - pose proof (e_n _ _ _ _ A). pose proof (e_n _ _ _ _ B). lia.
  - intros o Ho Hs. pose proof (e_n _ _ _ _ A).
    destruct (e_end _ _ _ _ B o) as [S1 N1]; auto; try lia.
    destruct (e_end _ _ _ _ A o) as [S0 N0]; auto.
Qed.

Lemma irel_ext p c p' c' i d : EXT p c p' c' -> irel p c i d -> irel p' c' i d.
Proof.
  intros E. destruct i as [|l k v|l k v]; cbn; auto; intros (H1 & H2 & H3 & H4);
    pose proof (e_ver _ _ _ _ E l); (split; [lia|]); (split; [auto|]); (split; [auto|]); intro Hv;
    destruct (H4 ltac:(lia)) as (A1 & A2 & A3 & A4);
    destruct (e_same _ _ _ _ E l ltac:(lia)) as [B1 B2]; repeat split; congruence.
Qed.

(** Loop variables. *)
Definition vrel (p : pst) (c : cst) (v : pvar) (cv : cval) : Prop :=
  match pv_from v with
  | None => exists z, pv_val v = Num z /\ cv = CNum z
  | Some (l, k, n) =>
      n <= pset p l k /\
      match pv_val v with
      | Num z => cv = CNum z
      | Str t => exists b, cv = CBox b /\
          (n = pset p l k -> nth_error (plists p l) k = Some (Str t) /\
                             nth_error (citems (clists c l)) k = Some (CBox b))
      end
  end.

Definition ENV (p : pst) (c : cst) (pe : penv) (ce : cenv) : Prop :=
  Forall2 (fun a b => fst a = fst b /\ vrel p c (snd a) (snd b)) pe ce.

Lemma vrel_ext p c p' c' v cv : EXT p c p' c' -> vrel p c v cv -> vrel p' c' v cv.
Proof.
  intros E. unfold vrel. destruct (pv_from v) as [[[l k] n]|]; auto.
  intros [H1 H2]. pose proof (e_set _ _ _ _ E l k). split; [lia|].
  destruct (pv_val v) as [z|t]; auto. destruct H2 as (b & Hb & H2). exists b; split; auto.
  intro Hn. destruct (H2 ltac:(lia)) as [A B].
  destruct (e_slot _ _ _ _ E l k (CBox b) (Str t)); auto; lia.
Qed.

Lemma ENV_ext p c p' c' pe ce : EXT p c p' c' -> ENV p c pe ce -> ENV p' c' pe ce.
Proof.
  intros E H. induction H as [|a b pe ce [H1 H2] H IH]; constructor; auto.
  split; auto. eapply vrel_ext; eauto.
Qed.

(** Sources. *)
Definition curel (p : pst) (c : cst) (a : pcur) (b : ccur) : Prop :=
  match a, b with
  | PcOwn i, CuPtr d => irel p c i d
  | PcOwn i, CuLoc d m => irel p c i d /\ m = ci_more d
  | PcObj o had, CuObj o' m =>
      o = o' /\ o < pnobj p /\
      (pi_stale p (pobjs p o) = false -> had = m /\ (m = false -> pi_at p (pobjs p o) = None))
  | _, _ => False
  end.

Definition CUR (p : pst) (c : cst) (a : list (nat * pcur)) (b : list (nat * ccur)) : Prop :=
  Forall2 (fun x y => fst x = fst y /\ curel p c (snd x) (snd y)) a b.

Lemma curel_ext p c p' c' a b : EXT p c p' c' -> curel p c a b -> curel p' c' a b.
Proof.
  intros E. destruct a, b; cbn; auto; try tauto.
  - eapply irel_ext; eauto.
  - intros [H1 H2]; split; auto. eapply irel_ext; eauto.
  - intros (-> & H1 & H2). pose proof (e_n _ _ _ _ E). split; auto. split; [lia|].
    intro Hs. destruct (e_end _ _ _ _ E o0 H1 Hs) as [A B]. destruct (H2 A) as [-> H3]. split; auto.
Qed.

Lemma CUR_ext p c p' c' a b : EXT p c p' c' -> CUR p c a b -> CUR p' c' a b.
Proof.
  intros E H. induction H as [|x y a b [H1 H2] H IH]; constructor; auto.
  split; auto. eapply curel_ext; eauto.
Qed.

(** ** Asking an iterator *)

Lemma irel_at p c i d :
  INV p c -> irel p c i d -> pi_stale p i = false ->
  match pi_at p i with
  | Some (l, k) =>
      ci_more d = true /\
      exists cv, ci_read c d = Some cv /\ nth_error (citems (clists c l)) k = Some cv /\
                 cload c cv = Some (nth k (plists p l) (Num 0)) /\
                 nth_error (plists p l) k = Some (nth k (plists p l) (Num 0)) /\
                 irel p c (pi_step i) (ci_step d)
  | None => ci_more d = false
  end.
Proof.
  intros I R S. pose proof (i_len _ _ I) as L. unfold ci_more.
  assert (X : forall l k, k < length (plists p l) ->
     exists cv, nth_error (citems (clists c l)) k = Some cv /\
                cload c cv = Some (nth k (plists p l) (Num 0)) /\
                nth_error (plists p l) k = Some (nth k (plists p l) (Num 0))).
  { intros l k Hk. pose proof (nth_error_nth' (plists p l) (Num 0) Hk) as Hn.
    destruct (i_item _ _ I l k _ Hn) as (cv & A & B). eauto. }
  destruct i as [|l k v|l k v]; cbn [pi_at pi_stale pi_step irel] in *.
  - rewrite R, Nat.eqb_refl. reflexivity.
  - apply negb_false_iff, Nat.eqb_eq in S. destruct R as (R1 & R2 & R3 & R4).
    destruct (R4 S) as (B & F & La & Le).
    destruct (k <? length (plists p l)) eqn:K.
    + apply Nat.ltb_lt in K. split.
      { apply negb_true_iff, Nat.eqb_neq. rewrite F, La, L. lia. }
      destruct (X l k K) as (cv & A1 & A2 & A3). exists cv. unfold ci_read.
      rewrite R2, B, Nat.eqb_refl, R3, F.
      split; [auto|]. split; [auto|]. split; [auto|]. split; [auto|].
      unfold ci_step. cbn. rewrite R3, F, La, L. auto 10.
    + apply Nat.ltb_ge in K. apply negb_false_iff, Nat.eqb_eq. rewrite F, La. rewrite L in *. lia.
  - apply negb_false_iff, Nat.eqb_eq in S. destruct R as (R1 & R2 & R3 & R4).
    destruct (R4 S) as (B & F & La & Le). destruct k as [|k].
    + rewrite F, La. reflexivity.
    + rewrite L in Le. assert (K : k < length (plists p l)) by lia.
      apply Nat.ltb_lt in K as K'. rewrite K'. split.
      { now rewrite F, La. }
      destruct (X l k K) as (cv & A1 & A2 & A3). exists cv. unfold ci_read.
      rewrite R2, B, Nat.eqb_refl, R3, F.
      split; [auto|]. split; [auto|]. split; [auto|]. split; [auto|].
      unfold ci_step. cbn. rewrite R3, F, La, L. cbn. repeat split; auto; lia.
Qed.

Lemma pi_stale_step p i : pi_stale p (pi_step i) = pi_stale p i.
Proof. destruct i; reflexivity. Qed.

Lemma pi_stale_obj p o j i : pi_stale (p_obj p o j) i = pi_stale p i.
Proof. destruct i; reflexivity. Qed.

Lemma pi_at_obj p o j i : pi_at (p_obj p o j) i = pi_at p i.
Proof. destruct i as [|? ? ?|? [|?] ?]; reflexivity. Qed.

Lemma irel_obj p c o j o' j' i d :
  irel p c i d <-> irel (p_obj p o j) (set_obj c o' j') i d.
Proof. destruct i; cbn; tauto. Qed.

Lemma irel_obj1 p c o j i d : irel p c i d <-> irel (p_obj p o j) c i d.
Proof. destruct i; cbn; tauto. Qed.

(** Stepping an object in both states. *)
Lemma INV_step p c o :
  INV p c -> irel p c (pi_step (pobjs p o)) (ci_step (cobjs c o)) ->
  INV (p_obj p o (pi_step (pobjs p o))) (set_obj c o (ci_step (cobjs c o))).
Proof.
  intros I R. destruct I. constructor; cbn; auto.
  intros o' Ho. apply irel_obj. destruct (Nat.eq_dec o' o) as [->|N].
  - now rewrite !upd_same.
  - rewrite !upd_other; auto.
Qed.

Lemma INV_dead p c o :
  INV p c -> ci_more (cobjs c o) = false -> INV (p_obj p o PDead) c.
Proof.
  intros I R. destruct I. constructor; cbn; auto.
  intros o' Ho. apply irel_obj1. destruct (Nat.eq_dec o' o) as [->|N].
  - rewrite upd_same. cbn. unfold ci_more in R. now apply negb_false_iff, Nat.eqb_eq in R.
  - rewrite upd_other; auto.
Qed.

Lemma EXT_step p c o lk :
  pi_stale p (pobjs p o) = false -> pi_at p (pobjs p o) = Some lk ->
  EXT p c (p_obj p o (pi_step (pobjs p o))) (set_obj c o (ci_step (cobjs c o))).
Proof.
  intros S A. constructor; cbn; auto.
  intros o' Ho Hs. rewrite pi_stale_obj in Hs. rewrite pi_at_obj.
  destruct (Nat.eq_dec o' o) as [->|N].
  - rewrite upd_same in *. split; auto. congruence.
  - rewrite upd_other in * by auto. auto.
Qed.

Lemma EXT_dead p c o :
  pi_stale p (pobjs p o) = false -> EXT p c (p_obj p o PDead) c.
Proof.
  intros S. constructor; cbn; auto.
  intros o' Ho Hs. rewrite pi_stale_obj in Hs. rewrite pi_at_obj.
  destruct (Nat.eq_dec o' o) as [->|N].
  - rewrite upd_same in *. split; auto.
  - rewrite upd_other in * by auto. auto.
Qed.

Lemma item_vrel p c l k cv :
  nth_error (citems (clists c l)) k = Some cv ->
  cload c cv = Some (nth k (plists p l) (Num 0)) ->
  nth_error (plists p l) k = Some (nth k (plists p l) (Num 0)) ->
  vrel p c (p_item p l k) cv.
Proof.
  intros A B D. unfold vrel, p_item. cbn [pv_from pv_val]. split; auto.
  destruct (nth k (plists p l) (Num 0)) as [z|t].
  - destruct cv as [z'|b]; cbn in B; [congruence|]. destruct (ccells c b); discriminate.
  - destruct cv as [z'|b]; cbn in B; [discriminate|]. exists b. auto.
Qed.

Lemma next_item p c a b v a' p' :
  INV p c -> curel p c a b -> p_next true p a = Item v a' p' ->
  cmore b = true /\
  exists cv b' c', cnext c b = Some (cv, b', c') /\ INV p' c' /\ EXT p c p' c' /\
                   vrel p' c' v cv /\ curel p' c' a' b'.
Proof.
  intros I R H. destruct a as [i|o had]; cbn [p_next andb] in H.
  - destruct (pi_stale p i) eqn:S; [discriminate|].
    assert (Ri : exists d, (b = CuPtr d \/ b = CuLoc d (ci_more d)) /\ irel p c i d).
    { destruct b; cbn in R; try contradiction; [eauto|destruct R as [R ->]; eauto]. }
    destruct Ri as (d & Hb & Ri). pose proof (irel_at p c i d I Ri S) as X.
    destruct (pi_at p i) as [[l k]|] eqn:At; [|discriminate]. injection H as <- <- <-.
    destruct X as (M & cv & A1 & A2 & A3 & A4 & A5).
    pose proof (item_vrel p c l k cv A2 A3 A4).
    destruct Hb as [-> | ->]; cbn [cmore cnext]; rewrite A1; (split; [auto|]);
      do 3 eexists; (split; [reflexivity|]); (split; [exact I|]); (split; [apply EXT_refl|]);
      (split; [assumption|]); cbn [curel]; auto.
  - destruct (pi_stale p (pobjs p o)) eqn:S; [discriminate|].
    destruct b as [| |o' m]; cbn in R; try tauto. destruct R as (<- & Ho & R).
    destruct (R S) as [-> Rm].
    pose proof (irel_at p c _ _ I (i_objs _ _ I o Ho) S) as X.
    destruct (pi_at p (pobjs p o)) as [[l k]|] eqn:At.
    2:{ destruct m; discriminate. }
    injection H as <- <- <-.
    destruct X as (M & cv & A1 & A2 & A3 & A4 & A5).
    cbn [cmore cnext]. rewrite A1. split. { destruct m; auto. now specialize (Rm eq_refl). }
    pose proof (INV_step p c o I A5) as I'.
    do 3 eexists. split; [reflexivity|]. split; [exact I'|]. split; [eapply EXT_step; eauto|].
    split; [exact (item_vrel p c l k cv A2 A3 A4)|].
    cbn [curel]. split; auto. split; [exact Ho|]. intros _.
    assert (S' : pi_stale (p_obj p o (pi_step (pobjs p o))) (pi_step (pobjs p o)) = false)
      by now rewrite pi_stale_obj, pi_stale_step.
    assert (R' : irel (p_obj p o (pi_step (pobjs p o))) (set_obj c o (ci_step (cobjs c o)))
                   (pi_step (pobjs p o)) (ci_step (cobjs c o))) by (apply irel_obj; exact A5).
    pose proof (irel_at _ _ _ _ I' R' S') as Y. unfold pi_more.
    replace (pobjs (p_obj p o (pi_step (pobjs p o))) o) with (pi_step (pobjs p o))
      by (cbn; now rewrite upd_same).
    destruct (pi_at (p_obj p o (pi_step (pobjs p o))) (pi_step (pobjs p o))) as [[l' k']|].
    + destruct Y as [Y _]. rewrite Y. split; auto. discriminate.
    + rewrite Y. auto.
Qed.

Lemma next_ended p c a b a' p' :
  INV p c -> curel p c a b -> p_next true p a = Ended a' p' ->
  cmore b = false /\ INV p' c /\ EXT p c p' c.
Proof.
  intros I R H. destruct a as [i|o had]; cbn [p_next andb] in H.
  - destruct (pi_stale p i) eqn:S; [discriminate|].
    assert (Ri : exists d, (b = CuPtr d \/ b = CuLoc d (ci_more d)) /\ irel p c i d).
    { destruct b; cbn in R; try contradiction; [eauto|destruct R as [R ->]; eauto]. }
    destruct Ri as (d & Hb & Ri). pose proof (irel_at p c i d I Ri S) as X.
    destruct (pi_at p i) as [[l k]|] eqn:At; [discriminate|]. injection H as <- <-.
    destruct Hb as [-> | ->]; cbn [cmore]; (split; [auto|]); (split; [exact I|apply EXT_refl]).
  - destruct (pi_stale p (pobjs p o)) eqn:S; [discriminate|].
    destruct b as [| |o' m]; cbn in R; try tauto. destruct R as (<- & Ho & R).
    destruct (R S) as [-> Rm].
    pose proof (irel_at p c _ _ I (i_objs _ _ I o Ho) S) as X.
    destruct (pi_at p (pobjs p o)) as [[l k]|] eqn:At; [discriminate|].
    destruct m; [discriminate|]. injection H as <- <-. cbn [cmore].
    split; auto. split; [apply INV_dead; auto|apply EXT_dead; auto].
Qed.

Lemma turn_ok : forall cs took p pe ds c ce pe' cs' p',
  INV p c -> ENV p c pe ce -> CUR p c cs ds ->
  p_turn true took p pe cs = Turn pe' cs' p' ->
  forallb (fun x => cmore (snd x)) ds = true /\
  exists ce' ds' c', cturn c ce ds = Some (ce', ds', c') /\ INV p' c' /\ EXT p c p' c' /\
                     ENV p' c' pe' ce' /\ CUR p' c' cs' ds'.
Proof.
  induction cs as [|[x a] cs IH]; intros took p pe ds c ce pe' cs' p' I E R H.
  - inversion R; subst. cbn in H. injection H as <- <- <-. split; auto.
    exists ce, [], c. split; [reflexivity|]. split; [exact I|]. split; [apply EXT_refl|].
    split; [exact E|constructor].
  - inversion R as [|? [x' b] ? ds0 [X1 X2] R0]; subst. cbn [fst snd] in *. subst x'.
    cbn [p_turn] in H. destruct (p_next true p a) as [v a' p1|a' p1|] eqn:N; try discriminate.
    2:{ destruct took; discriminate. }
    destruct (next_item p c a b v a' p1 I X2 N) as (M & cv & b' & c1 & C & I1 & E1 & V1 & R1).
    match type of H with context [p_turn true ?t p1 ?e cs] =>
      destruct (p_turn true t p1 e cs) as [pe2 cs2 p2|p2|] eqn:T; try discriminate;
      destruct (IH t p1 e ds0 c1 ((x, cv) :: ce) pe2 cs2 p2 I1) as (F & ce' & ds' & c' & C' & I2 & E2 & En2 & R2);
      auto
    end.
    { constructor; [split; auto|]. eapply ENV_ext; eauto. }
    { eapply CUR_ext; eauto. }
    injection H as <- <- <-. cbn [forallb snd]. rewrite M. split; auto.
    exists ce', ((x, b') :: ds'), c'. cbn [cturn]. rewrite C, C'.
    split; auto. split; auto. split; [eapply EXT_trans; eauto|]. split; auto.
    constructor; auto. split; auto. eapply curel_ext; eauto.
Qed.

Lemma turn_stop : forall cs took p pe ds c p',
  INV p c -> CUR p c cs ds ->
  p_turn true took p pe cs = Stop p' ->
  took = false /\ forallb (fun x => cmore (snd x)) ds = false /\ INV p' c /\ EXT p c p' c.
Proof.
  induction cs as [|[x a] cs IH]; intros took p pe ds c p' I R H; [discriminate|].
  inversion R as [|? [x' b] ? ds0 [X1 X2] R0]; subst. cbn [fst snd] in *. subst x'.
  cbn [p_turn] in H. destruct (p_next true p a) as [v a' p1|a' p1|] eqn:N; try discriminate.
  - destruct (next_item p c a b v a' p1 I X2 N) as (M & cv & b' & c1 & C & I1 & E1 & V1 & R1).
    match type of H with context [p_turn true ?t p1 ?e cs] =>
      destruct (p_turn true t p1 e cs) as [pe2 cs2 p2|p2|] eqn:T; try discriminate
    end.
    injection H as <-. destruct a as [i|o had].
    + assert (p1 = p).
      { cbn in N. destruct (pi_stale p i); [discriminate|]. destruct (pi_at p i) as [[? ?]|]; congruence. }
      subst p1. edestruct IH as (A & B & D & F); [exact I|exact R0|exact T|].
      cbn [forallb snd]. rewrite B, andb_false_r. auto.
    + edestruct IH as (A & _); [exact I1| |exact T|]. { eapply CUR_ext; eauto. } discriminate.
  - destruct took; [discriminate|]. cbn in H. injection H as <-.
    destruct (next_ended p c a b a' p1 I X2 N) as (M & D & F). cbn [forallb snd]. rewrite M. auto.
Qed.

(** ** Statements on lists *)

Lemma cload_cell c cv v : cload c cv = Some v ->
  match cv with CNum z => v = Num z | CBox b => exists t, ccells c b = Some t /\ v = Str t end.
Proof.
  destruct cv as [z|b]; cbn; [congruence|]. destruct (ccells c b); [|discriminate].
  intros [= <-]. eauto.
Qed.

(** Every box in a list is a live cell. *)
Lemma inv_box p c l k b : INV p c -> nth_error (citems (clists c l)) k = Some (CBox b) ->
  b < cncell c.
Proof.
  intros I H. assert (K : k < length (plists p l)).
  { rewrite <- (i_len _ _ I). apply nth_error_Some. congruence. }
  destruct (nth_error (plists p l) k) as [v|] eqn:V; [|apply nth_error_None in V; lia].
  destruct (i_item _ _ I l k v V) as (cv & A & B). rewrite H in A. injection A as <-.
  cbn in B. destruct (ccells c b) eqn:C; [|discriminate].
  destruct (Nat.lt_ge_cases b (cncell c)); auto. rewrite (i_cell _ _ I b) in C; auto. discriminate.
Qed.

Lemma INV_emit p c v : INV p c -> INV (p_emit p v) (emit c v).
Proof.
  intros []. constructor; cbn; auto. congruence.
Qed.

Lemma EXT_emit p c v : EXT p c (p_emit p v) (emit c v).
Proof. constructor; cbn; auto. Qed.

Lemma INV_new p c v i d : INV p c -> irel p c i d -> INV (p_new p v i) (new_obj c v d).
Proof.
  intros I R. destruct I. constructor; cbn; auto.
  - intros w. unfold upd. rewrite i_n0. destruct (w =? v); auto.
  - intros w o. unfold upd. destruct (w =? v); [intros [= <-]; lia|]. intro H. apply i_varb0 in H. lia.
  - intros o Ho. rewrite i_n0. destruct (Nat.eq_dec o (cnobj c)) as [->|N].
    + rewrite !upd_same. destruct i; exact R.
    + rewrite !upd_other by auto. assert (Ho' : o < pnobj p) by lia. specialize (i_objs0 o Ho').
      destruct (pobjs p o); exact i_objs0.
Qed.

Lemma EXT_new p c v i d : EXT p c (p_new p v i) (new_obj c v d).
Proof.
  constructor; cbn; auto. intros o Ho.
  rewrite upd_other by lia. destruct (pobjs p o) as [|? ? ?|? [|?] ?]; cbn; auto.
Qed.

(** A new value put into memory. *)
Lemma calloc_facts p c v cv c1 :
  INV p c -> calloc c v = (cv, c1) ->
  INV p c1 /\ clists c1 = clists c /\ cnbuf c1 = cnbuf c /\ cvars c1 = cvars c /\ cobjs c1 = cobjs c /\
  cnobj c1 = cnobj c /\ cout c1 = cout c /\
  cload c1 cv = Some v /\
  (forall l k b, cv = CBox b -> nth_error (citems (clists c l)) k <> Some (CBox b)) /\
  (forall b, cv = CBox b -> b < cncell c1).
Proof.
  intros I H. destruct v as [z|t]; cbn in H; injection H as <- <-.
  - split; [exact I|]. repeat (split; [reflexivity|]). split; intros; discriminate.
  - cbn. rewrite upd_same. split.
    { pose proof (i_cell _ _ I) as FC.
      assert (CL : forall cv v, cload c cv = Some v ->
                cload (mkC (clists c) (cnbuf c) (upd (ccells c) (cncell c) (Some t)) (S (cncell c))
                         (cvars c) (cobjs c) (cnobj c) (cout c)) cv = Some v).
      { intros [z|b] v; cbn; auto. intro E. destruct (Nat.eq_dec b (cncell c)) as [->|N].
        - rewrite FC in E; auto. discriminate.
        - now rewrite upd_other. }
      destruct I. constructor; cbn; auto.
      - intros l k v Hv. destruct (i_item0 l k v Hv) as (cv & A & B). eauto.
      - intros b Hb. rewrite upd_other by lia. apply FC. lia. }
    repeat split; auto.
    + intros l k b [= <-] Hk. apply (inv_box p c) in Hk; auto. lia.
    + intros b [= <-]. lia.
Qed.

Lemma pi_at_lists p p' i :
  (forall l, pi_stale p' i = false -> match i with PDead => False | PFwd l' _ _ | PRev l' _ _ => l = l' end ->
             length (plists p' l) = length (plists p l)) ->
  pi_stale p' i = false -> pi_at p i = None -> pi_at p' i = None.
Proof.
  intros H S. destruct i as [|l k v|l [|k] v]; cbn; auto; rewrite (H l S eq_refl); auto.
Qed.

(** Append. *)
Lemma append_ok p c l v :
  INV p c -> INV (p_append p l v) (cappend c l v) /\ EXT p c (p_append p l v) (cappend c l v).
Proof.
  intros I. unfold cappend. destruct (calloc c v) as [cv c1] eqn:A.
  destruct (calloc_facts p c v cv c1 I A) as (I1 & L1 & B1 & V1 & O1 & N1 & Ou1 & Ld & Fr & Fb).
  set (q := clists c1 l).
  assert (G : exists nb cap b, (if length (citems q) <? ccap q
              then set_list c1 l (mkCl (cbuf q) (ccap q) (citems q ++ [cv])) (cnbuf c1)
              else set_list c1 l (mkCl (cnbuf c1) (Nat.max 1 (2 * ccap q)) (citems q ++ [cv])) (S (cnbuf c1)))
            = set_list c1 l (mkCl b cap (citems q ++ [cv])) nb /\ b < nb /\ cnbuf c1 <= nb).
  { destruct (length (citems q) <? ccap q).
    - do 3 eexists. split; [reflexivity|]. split; auto. apply (i_buf _ _ I1).
    - do 3 eexists. split; [reflexivity|]. lia. }
  destruct G as (nb & cap & b & -> & Hb & Hn).
  assert (OWN : forall o, o < pnobj p ->
      irel (p_append p l v) (set_list c1 l (mkCl b cap (citems q ++ [cv])) nb) (pobjs p o) (cobjs c1 o)).
  { intros o Ho. pose proof (i_objs _ _ I1 o Ho) as R. unfold p_append, set_list.
    destruct (pobjs p o) as [|l' k w|l' k w]; cbn in *; auto;
      destruct R as (R1 & R2 & R3 & R4); unfold bump;
      (destruct (Nat.eq_dec l' l) as [->|N];
       [rewrite !upd_same; repeat split; auto; lia
       |rewrite !upd_other by auto; auto]). }
  split.
  - constructor; cbn; auto.
    + intros l'. destruct (Nat.eq_dec l' l) as [->|N].
      * rewrite !upd_same. cbn. rewrite !app_length. cbn. unfold q. now rewrite (i_len _ _ I1).
      * rewrite !upd_other by auto. apply (i_len _ _ I1).
    + intros l' k w. destruct (Nat.eq_dec l' l) as [->|N].
      * rewrite !upd_same. cbn. intro Hk.
        destruct (Nat.lt_ge_cases k (length (plists p l))) as [K|K].
        -- rewrite nth_error_app1 in Hk by auto. destruct (i_item _ _ I1 l k w Hk) as (cv' & X & Y).
           exists cv'. rewrite nth_error_app1; [auto|]. unfold q. rewrite (i_len _ _ I1). auto.
        -- rewrite nth_error_app2 in Hk by auto. exists cv.
           assert (k - length (plists p l) = 0).
           { destruct (k - length (plists p l)); auto. cbn in Hk. destruct n; discriminate. }
           rewrite H in Hk. cbn in Hk. injection Hk as <-. split; [|exact Ld].
           rewrite nth_error_app2; unfold q; rewrite (i_len _ _ I1); auto. now rewrite H.
      * rewrite !upd_other by auto. apply (i_item _ _ I1).
    + assert (X : forall l1 k1 bb, nth_error (citems (upd (clists c1) l (mkCl b cap (citems q ++ [cv])) l1)) k1
                    = Some (CBox bb) ->
                  (nth_error (citems (clists c1 l1)) k1 = Some (CBox bb)) \/
                  (l1 = l /\ k1 = length (citems q) /\ cv = CBox bb)).
      { intros l1 k1 bb. destruct (Nat.eq_dec l1 l) as [->|N].
        - rewrite upd_same. cbn. destruct (Nat.lt_ge_cases k1 (length (citems q))) as [K|K].
          + rewrite nth_error_app1 by auto. auto.
          + rewrite nth_error_app2 by auto. remember (k1 - length (citems q)) as m eqn:Em.
            destruct m as [|m]; cbn; [|destruct m; discriminate]. intros [= <-]. right. split; auto. split; auto. lia.
        - rewrite upd_other by auto. auto. }
      intros l1 k1 l2 k2 bb H1 H2. rewrite L1 in X, H1, H2.
      destruct (X _ _ _ H1) as [P1|(-> & -> & P1)]; destruct (X _ _ _ H2) as [P2|(-> & -> & P2)]; auto.
      * apply (i_own _ _ I l1 k1 l2 k2 bb); auto.
      * exfalso. eapply Fr; eauto.
      * exfalso. eapply Fr; eauto.
    + apply (i_cell _ _ I1).
    + intros l'. destruct (Nat.eq_dec l' l) as [->|N].
      * now rewrite upd_same.
      * rewrite upd_other by auto. pose proof (i_buf _ _ I1 l'). lia.
    + apply (i_vars _ _ I1).
    + apply (i_varb _ _ I1).
    + apply (i_n _ _ I1).
    + apply (i_out _ _ I1).
  - constructor; cbn; auto.
    + intros l' k cv' w _ H1 H2. destruct (Nat.eq_dec l' l) as [->|N].
      * rewrite !upd_same. cbn. unfold q. rewrite L1.
        rewrite !nth_error_app1; auto; apply nth_error_Some; congruence.
      * rewrite !upd_other by auto. now rewrite L1.
    + intros l'. unfold bump. destruct (Nat.eq_dec l' l) as [->|N];
        [rewrite upd_same|rewrite upd_other]; auto.
    + intros l'. unfold bump. destruct (Nat.eq_dec l' l) as [->|N];
        [rewrite !upd_same; lia|rewrite !upd_other by auto]. now rewrite L1.
    + intros o Ho Hs.
      assert (X : forall i, pi_stale (p_append p l v) i = false -> irel p c i (cobjs c o) ->
                match i with PDead => True | PFwd l' _ _ | PRev l' _ _ => l' <> l end).
      { intros [|l' k w|l' k w]; cbn; auto; intros E (R & _) ->; unfold bump in E;
          rewrite upd_same in E; apply negb_false_iff, Nat.eqb_eq in E; lia. }
      pose proof (i_objs _ _ I o Ho) as R. specialize (X _ Hs R). revert Hs R X.
      destruct (pobjs p o) as [|l' k w|l' [|k] w]; cbn; auto; unfold bump;
        intros Hs _ N; rewrite upd_other in Hs by auto; split; auto; now rewrite upd_other by auto.
Qed.

(** Freeing a box no list holds any more. *)
Lemma free_inv p c cv :
  INV p c -> (forall l k b, cv = CBox b -> nth_error (citems (clists c l)) k <> Some (CBox b)) ->
  INV p (cfree c cv).
Proof.
  intros I H. destruct cv as [z|b]; cbn; auto. destruct I. constructor; cbn; auto.
  - intros l k v Hv. destruct (i_item0 l k v Hv) as (cv & A & B). exists cv. split; auto.
    destruct cv as [z|b']; cbn in *; auto. rewrite upd_other; auto. intros ->.
    eapply H; eauto.
  - intros b' Hb. unfold upd. destruct (b' =? b); auto.
Qed.

Lemma cfree_same c cv :
  clists (cfree c cv) = clists c /\ cnbuf (cfree c cv) = cnbuf c /\ cvars (cfree c cv) = cvars c /\
  cobjs (cfree c cv) = cobjs c /\ cnobj (cfree c cv) = cnobj c /\ cout (cfree c cv) = cout c.
Proof. destruct cv; cbn; auto 10. Qed.

Lemma EXT_clists p c p' c1 c2 : clists c1 = clists c2 -> EXT p c p' c1 -> EXT p c p' c2.
Proof. intros E []. constructor; auto; rewrite <- E; auto. Qed.

(** Pop. *)
Lemma pop_ok p c l p' :
  INV p c -> p_pop p l = Some p' ->
  exists c', cpop c l = Some c' /\ INV p' c' /\ EXT p c p' c'.
Proof.
  intros I H. unfold p_pop in H. unfold cpop. set (q := clists c l) in *.
  pose proof (i_len _ _ I l) as L. fold q in L.
  assert (NE : plists p l <> []) by (intro E; rewrite E in H; discriminate).
  assert (H' : Some (mkP (upd (plists p) l (firstn (pred (length (plists p l))) (plists p l))) (bump (pver p) l)
     (upd (pset p) l (bump (pset p l) (pred (length (plists p l))))) (pvars p) (pobjs p) (pnobj p) (pout p)) = Some p').
  { destruct (plists p l); [congruence|exact H]. }
  clear H. injection H' as <-. set (n := pred (length (plists p l))).
  assert (Hn : length (plists p l) = S n).
  { unfold n. destruct (plists p l); [congruence|reflexivity]. }
  destruct (nth_error (citems q) n) as [cv|] eqn:X; [|apply nth_error_None in X; lia].
  assert (CP : match citems q with
    | [] => None
    | _ :: _ => match nth_error (citems q) (pred (length (citems q))) with
                | Some c0 => Some (cfree (set_list c l (mkCl (cbuf q) (ccap q)
                      (firstn (pred (length (citems q))) (citems q))) (cnbuf c)) c0)
                | None => None
                end
    end = Some (cfree (set_list c l (mkCl (cbuf q) (ccap q) (firstn n (citems q))) (cnbuf c)) cv)).
  { rewrite L. fold n. rewrite X. destruct (citems q); [cbn in L; lia|reflexivity]. }
  rewrite CP. clear CP.
  eexists. split; [reflexivity|].
  set (c1 := set_list c l (mkCl (cbuf q) (ccap q) (firstn n (citems q))) (cnbuf c)).
  set (p1 := mkP _ _ _ _ _ _ _).
  assert (L1 : forall l1, citems (clists c1 l1) = if Nat.eq_dec l1 l then firstn n (citems q) else citems (clists c l1)).
  { intros l1. unfold c1. cbn. unfold upd. destruct (Nat.eq_dec l1 l) as [->|N]; [now rewrite Nat.eqb_refl|].
    apply Nat.eqb_neq in N. now rewrite N. }
  assert (B1 : forall l1, cbuf (clists c1 l1) = cbuf (clists c l1)).
  { intros l1. unfold c1. cbn. unfold upd. destruct (l1 =? l) eqn:N; auto. apply Nat.eqb_eq in N. now subst. }
  assert (Q1 : forall l1, plists p1 l1 = if Nat.eq_dec l1 l then firstn n (plists p l) else plists p l1).
  { intros l1. unfold p1. cbn. unfold upd. destruct (Nat.eq_dec l1 l) as [->|N]; [now rewrite Nat.eqb_refl|].
    apply Nat.eqb_neq in N. now rewrite N. }
  assert (NE1 : forall l1 k cv1, nth_error (citems (clists c1 l1)) k = Some cv1 ->
            nth_error (citems (clists c l1)) k = Some cv1 /\ (l1 = l -> k < n)).
  { intros l1 k cv1. rewrite L1. destruct (Nat.eq_dec l1 l) as [->|N]; [|tauto].
    intro E. assert (K : k < n).
    { destruct (Nat.lt_ge_cases k n); auto. rewrite nth_error_firstn_ge in E by auto. discriminate. }
    rewrite nth_error_firstn_lt in E by auto. auto. }
  assert (IR : forall i d, irel p c i d -> irel p1 c1 i d).
  { intros [|l' k w|l' k w] d; cbn [irel]; auto; intros (R1 & R2 & R3 & R4);
      change (pver p1) with (bump (pver p) l); unfold bump;
      (destruct (Nat.eq_dec l' l) as [->|N];
       [rewrite !upd_same; repeat split; auto; lia
       |rewrite !upd_other by auto; split; [auto|]; split; [auto|]; split; [auto|];
        rewrite B1, L1; destruct (Nat.eq_dec l' l); [congruence|auto]]). }
  assert (I1 : INV p1 c1).
  { constructor.
    - intros l1. rewrite L1, Q1. destruct (Nat.eq_dec l1 l); [|apply (i_len _ _ I)].
      rewrite !firstn_length. lia.
    - intros l1 k v. rewrite Q1. intro Hv.
      assert (Hv' : nth_error (plists p l1) k = Some v /\ (l1 = l -> k < n)).
      { destruct (Nat.eq_dec l1 l) as [->|N]; [|split; [auto|congruence]].
        destruct (Nat.lt_ge_cases k n); [rewrite nth_error_firstn_lt in Hv by auto; auto|].
        rewrite nth_error_firstn_ge in Hv by auto. discriminate. }
      destruct Hv' as [Hv' K]. destruct (i_item _ _ I l1 k v Hv') as (cv1 & A & B). exists cv1.
      split; [|exact B]. rewrite L1. destruct (Nat.eq_dec l1 l) as [->|N]; auto.
      rewrite nth_error_firstn_lt; auto.
    - intros l1 k1 l2 k2 b H1 H2. apply NE1 in H1 as [H1 _]. apply NE1 in H2 as [H2 _].
      eapply (i_own _ _ I); eauto.
    - apply (i_cell _ _ I).
    - intros l1. rewrite B1. apply (i_buf _ _ I).
    - apply (i_vars _ _ I).
    - apply (i_varb _ _ I).
    - apply (i_n _ _ I).
    - apply (i_out _ _ I).
    - intros o Ho. apply IR. apply (i_objs _ _ I). exact Ho. }
  split.
  - apply free_inv; auto. intros l1 k b -> E. apply NE1 in E as [E K].
    destruct (i_own _ _ I l1 k l n b E X) as [-> ->]. specialize (K eq_refl). lia.
  - apply EXT_clists with (c1 := c1); [destruct cv; reflexivity|].
    constructor.
    + intros l1 k. unfold p1. cbn. unfold bump, upd. destruct (l1 =? l) eqn:N; auto.
      apply Nat.eqb_eq in N. subst. destruct (k =? _) eqn:K; auto. apply Nat.eqb_eq in K. subst. lia.
    + intros l1 k cv1 v E H1 H2. rewrite L1, Q1. destruct (Nat.eq_dec l1 l) as [->|N]; auto.
      assert (K : k <> n).
      { intros ->. unfold p1 in E. cbn in E. fold n in E. rewrite upd_same in E. unfold bump in E.
        rewrite upd_same in E. lia. }
      assert (k < length (plists p l)) by (apply nth_error_Some; congruence).
      rewrite !nth_error_firstn_lt by lia. auto.
    + intros l1. unfold p1. cbn. unfold bump, upd. destruct (l1 =? l) eqn:N; auto.
      apply Nat.eqb_eq in N. subst. lia.
    + intros l1. unfold p1. cbn [pver]. unfold bump. destruct (Nat.eq_dec l1 l) as [->|N].
      * rewrite upd_same. lia.
      * intros _. rewrite B1, L1. destruct (Nat.eq_dec l1 l); [congruence|auto].
    + auto.
    + intros o Ho Hs. pose proof (i_objs _ _ I o Ho) as R. change (pobjs p1 o) with (pobjs p o) in *.
      revert Hs R. destruct (pobjs p o) as [|l' k w|l' [|k] w]; cbn [pi_stale pi_at irel]; auto;
        change (pver p1) with (bump (pver p) l); unfold bump; intros Hs (R & _);
        apply negb_false_iff, Nat.eqb_eq in Hs;
        (destruct (Nat.eq_dec l' l) as [->|N]; [rewrite upd_same in Hs; lia|]);
        rewrite upd_other in Hs by auto; rewrite Hs, Nat.eqb_refl; split; auto;
        rewrite Q1; (destruct (Nat.eq_dec l' l); [congruence|auto]).
Qed.

Lemma pop_none p c l : INV p c -> p_pop p l = None -> cpop c l = None.
Proof.
  intros I H. unfold p_pop in H. unfold cpop. pose proof (i_len _ _ I l) as L.
  destruct (plists p l); [|discriminate]. cbn in L. apply length_zero_iff_nil in L. now rewrite L.
Qed.

(** Assignment to a slot. *)
Lemma set_ok p c l k v :
  INV p c ->
  match p_set p l k v with
  | Some p' => exists c', cset c l k v = Some c' /\ INV p' c' /\ EXT p c p' c'
  | None => cset c l k v = None
  end.
Proof.
  intros I. unfold p_set, cset. rewrite (i_len _ _ I l).
  set (k1 := if (k <? 0)%Z then _ else k).
  destruct ((0 <=? k1)%Z && (k1 <? Z.of_nat (length (plists p l)))%Z) eqn:B; auto.
  apply andb_true_iff in B as [B1 B2]. apply Z.leb_le in B1. apply Z.ltb_lt in B2.
  set (n := Z.to_nat k1). assert (Hn : n < length (plists p l)) by (unfold n; lia). clearbody n. clear k1 B1 B2.
  destruct (calloc c v) as [cv c1] eqn:A.
  destruct (calloc_facts p c v cv c1 I A) as (I1 & L1 & Bu1 & V1 & O1 & N1 & Ou1 & Ld & Fr & Fb).
  set (q := clists c1 l).
  assert (Lq : length (citems q) = length (plists p l)) by apply (i_len _ _ I1).
  destruct (nth_error (citems q) n) as [old|] eqn:X; [|apply nth_error_None in X; lia].
  eexists. split; [reflexivity|].
  set (c2 := set_list c1 l (mkCl (cbuf q) (ccap q) (lset (citems q) n cv)) (cnbuf c1)).
  set (p1 := mkP _ _ _ _ _ _ _).
  assert (LL : forall l1, citems (clists c2 l1) = if Nat.eq_dec l1 l then lset (citems q) n cv else citems (clists c l1)).
  { intros l1. unfold c2. cbn. unfold upd. destruct (Nat.eq_dec l1 l) as [->|N]; [now rewrite Nat.eqb_refl|].
    apply Nat.eqb_neq in N. now rewrite N, L1. }
  assert (BB : forall l1, cbuf (clists c2 l1) = cbuf (clists c l1)).
  { intros l1. unfold c2. cbn. unfold upd. rewrite L1. destruct (l1 =? l) eqn:N; auto.
    apply Nat.eqb_eq in N. subst. unfold q. now rewrite L1. }
  assert (QQ : forall l1, plists p1 l1 = if Nat.eq_dec l1 l then lset (plists p l) n v else plists p l1).
  { intros l1. unfold p1. cbn. unfold upd. destruct (Nat.eq_dec l1 l) as [->|N]; [now rewrite Nat.eqb_refl|].
    apply Nat.eqb_neq in N. now rewrite N. }
  assert (Hq : q = clists c l) by (unfold q; now rewrite L1).
  assert (LEN : forall l1, length (citems (clists c2 l1)) = length (citems (clists c l1))).
  { intros l1. rewrite LL. destruct (Nat.eq_dec l1 l) as [->|]; auto. now rewrite lset_length, Hq. }
  assert (IR : forall i d, irel p c i d -> irel p1 c2 i d).
  { intros [|l' k' w|l' k' w] d; cbn [irel]; auto; rewrite BB, LEN; auto. }
  assert (OLD : forall l1 k1 b, nth_error (citems (clists c2 l1)) k1 = Some (CBox b) ->
            (nth_error (citems (clists c l1)) k1 = Some (CBox b) /\ (l1, k1) <> (l, n)) \/
            (l1 = l /\ k1 = n /\ cv = CBox b)).
  { intros l1 k1 b. rewrite LL. destruct (Nat.eq_dec l1 l) as [->|N].
    - destruct (Nat.eq_dec k1 n) as [->|K].
      + rewrite lset_same by lia. intros [= ->]. auto.
      + rewrite lset_other by auto. rewrite Hq. intro; left; split; auto. congruence.
    - intro; left; split; auto. congruence. }
  assert (I2 : INV p1 c2).
  { constructor.
    - intros l1. rewrite LEN, QQ. destruct (Nat.eq_dec l1 l) as [->|]; [rewrite lset_length|]; apply (i_len _ _ I).
    - intros l1 k1 w. rewrite QQ, LL. destruct (Nat.eq_dec l1 l) as [->|N].
      + destruct (Nat.eq_dec k1 n) as [->|K].
        * rewrite lset_same by auto. intros [= <-]. exists cv. rewrite lset_same by lia. auto.
        * rewrite !lset_other by auto. apply (i_item _ _ I1).
      + intro Hw. rewrite <- L1. apply (i_item _ _ I1). exact Hw.
    - intros l1 k1 l2 k2 b H1 H2.
      destruct (OLD _ _ _ H1) as [[P1 _]|(-> & -> & P1)]; destruct (OLD _ _ _ H2) as [[P2 _]|(-> & -> & P2)]; auto.
      + eapply (i_own _ _ I); eauto.
      + exfalso; eapply Fr; eauto.
      + exfalso; eapply Fr; eauto.
    - apply (i_cell _ _ I1).
    - intros l1. rewrite BB. unfold c2. cbn. rewrite Bu1. apply (i_buf _ _ I).
    - apply (i_vars _ _ I1).
    - apply (i_varb _ _ I1).
    - apply (i_n _ _ I1).
    - apply (i_out _ _ I1).
    - intros o Ho. apply IR. unfold c2. cbn. rewrite O1. apply (i_objs _ _ I). exact Ho. }
  split.
  - apply free_inv; auto. intros l1 k1 b -> E. rewrite Hq in X.
    destruct (OLD _ _ _ E) as [[P1 P2]|(-> & -> & P1)].
    + destruct (i_own _ _ I l1 k1 l n b P1 X) as [-> ->]. congruence.
    + exfalso. eapply Fr; eauto.
  - apply EXT_clists with (c1 := c2); [destruct old; reflexivity|].
    constructor; auto.
    + intros l1 k1. unfold p1. cbn. unfold bump, upd. destruct (l1 =? l) eqn:N; auto.
      apply Nat.eqb_eq in N. subst. destruct (k1 =? n) eqn:K; auto. apply Nat.eqb_eq in K. subst. lia.
    + intros l1 k1 cv1 w E H1 H2. rewrite LL, QQ. destruct (Nat.eq_dec l1 l) as [->|N]; auto.
      assert (K : k1 <> n).
      { intros ->. unfold p1 in E. cbn in E. rewrite upd_same in E. unfold bump in E.
        rewrite upd_same in E. lia. }
      rewrite !lset_other by auto. rewrite Hq. auto.
    + intros o Ho Hs. change (pobjs p1 o) with (pobjs p o) in *. revert Hs.
      destruct (pobjs p o) as [|l' k' w|l' [|k'] w]; cbn [pi_stale pi_at]; auto;
        change (pver p1) with (pver p); intro Hs; split; auto;
        rewrite QQ; destruct (Nat.eq_dec l' l) as [->|]; auto; now rewrite lset_length.
Qed.

(** ** Expressions *)

Lemma eval_ok p c pe ce e :
  INV p c -> ENV p c pe ce ->
  match p_eval true p pe e with
  | Has v => ceval c ce e = Got v
  | Unbound => ceval c ce e = NoName
  | Unsafe => True
  end.
Proof.
  intros I E. destruct e as [x|v]; cbn [p_eval ceval andb]; auto.
  assert (X : match plook pe x with
              | None => clook ce x = None
              | Some v => exists cv, clook ce x = Some cv /\ vrel p c v cv
              end).
  { induction E as [|[y v] [y' cv] pe ce [H1 H2] E IH]; cbn in *; auto. subst y'.
    destruct (x =? y); eauto. }
  destruct (plook pe x) as [v|]; [|now rewrite X].
  destruct X as (cv & -> & R). destruct (pv_gone p v) eqn:G; auto.
  assert (L : cload c cv = Some (pv_val v)); [|now rewrite L].
  unfold vrel in R. unfold pv_gone in G. destruct (pv_from v) as [[[l k] n]|].
  - destruct R as [R1 R2]. destruct (pv_val v) as [z|t].
    + now subst cv.
    + destruct R2 as (b & -> & R2). apply negb_false_iff, Nat.eqb_eq in G.
      destruct (R2 G) as [A B]. destruct (i_item _ _ I l k _ A) as (cv' & C & D). congruence.
  - destruct R as (z & -> & ->). reflexivity.
Qed.

(** ** Starting a loop *)

Lemma start_ok p c a :
  INV p c ->
  match p_start p a with
  | Some x => exists y, cstart c a = Some y /\ curel p c x y
  | None => cstart c a = None
  end.
Proof.
  intros I. assert (X : forall l, irel p c (PFwd l 0 (pver p l)) (ci_make c l false)).
  { intros l. cbn. repeat split; auto. lia. }
  destruct a as [l|l|v]; cbn [p_start cstart].
  - eexists; split; [reflexivity|]. apply X.
  - eexists; split; [reflexivity|]. split; [apply X|reflexivity].
  - rewrite <- (i_vars _ _ I). destruct (pvars p v) as [o|] eqn:V; auto.
    pose proof (i_varb _ _ I v o V) as Ho.
    eexists; split; [reflexivity|]. cbn. split; auto. split; auto. intro S.
    pose proof (irel_at p c _ _ I (i_objs _ _ I o Ho) S) as Y. unfold pi_more.
    destruct (pi_at p (pobjs p o)) as [[l k]|].
    + destruct Y as [-> _]. split; auto. discriminate.
    + rewrite Y. auto.
Qed.

Lemma starts_ok p c cs :
  INV p c ->
  match p_starts p cs with
  | Some x => exists y, cstarts c cs = Some y /\ CUR p c x y
  | None => cstarts c cs = None
  end.
Proof.
  intros I. induction cs as [|[x a] cs IH]; cbn.
  - exists []. split; auto. constructor.
  - pose proof (start_ok p c a I) as S. destruct (p_start p a).
    + destruct S as (y & -> & R). destruct (p_starts p cs).
      * destruct IH as (y' & -> & R'). eexists; split; [reflexivity|]. constructor; auto.
      * now rewrite IH.
    + now rewrite S.
Qed.

(** ** Results *)

Definition rrel (p : pst) (c : cst) (r : pres) (q : cres) : Prop :=
  match r with
  | PDone k p' => exists c', q = CDone k c' /\ INV p' c' /\ EXT p c p' c'
  | PRaise p' => exists c', q = CRaise c' /\ INV p' c'
  | PDisturbed => True
  | PFuel => q = CFuel
  end.

Lemma rrel_ext p c p1 c1 r q : EXT p c p1 c1 -> rrel p1 c1 r q -> rrel p c r q.
Proof.
  intros E. destruct r; cbn; auto. intros (c' & -> & I & E'). eexists; split; [reflexivity|].
  split; auto. eapply EXT_trans; eauto.
Qed.

Lemma obj_next p c o :
  INV p c -> o < pnobj p ->
  match p_next true p (PcObj o false) with
  | Item v _ p' =>
      ci_more (cobjs c o) = true /\
      exists cv, ci_read c (cobjs c o) = Some cv /\ cload c cv = Some (pv_val v) /\
                 INV p' (set_obj c o (ci_step (cobjs c o))) /\
                 EXT p c p' (set_obj c o (ci_step (cobjs c o))) /\ pnobj p' = pnobj p
  | Ended _ p' => ci_more (cobjs c o) = false /\ INV p' c /\ EXT p c p' c
  | Bad => True
  end.
Proof.
  intros I Ho. cbn [p_next andb]. destruct (pi_stale p (pobjs p o)) eqn:S; auto.
  pose proof (irel_at p c _ _ I (i_objs _ _ I o Ho) S) as X.
  destruct (pi_at p (pobjs p o)) as [[l k]|] eqn:At.
  - destruct X as (M & cv & A1 & A2 & A3 & A4 & A5). split; auto. exists cv.
    split; auto. split; [exact A3|]. split; [now apply INV_step|]. split; [|reflexivity].
    eapply EXT_step; eauto.
  - split; auto. split; [now apply INV_dead|now apply EXT_dead].
Qed.

Lemma cappend_objs c l v : cobjs (cappend c l v) = cobjs c /\ cnobj (cappend c l v) = cnobj c.
Proof.
  unfold cappend. destruct v; cbn; match goal with |- context [if ?b then _ else _] => destruct b end; cbn; auto.
Qed.

Lemma extend_ok : forall fuel p c l o,
  INV p c -> o < pnobj p ->
  rrel p c (p_extend true fuel l o p) (cextend fuel l o (ci_more (cobjs c o)) c).
Proof.
  induction fuel as [|f IH]; intros p c l o I Ho; cbn [p_extend cextend];
    pose proof (obj_next p c o I Ho) as N;
    destruct (p_next true p (PcObj o false)) as [v a p'|a p'|]; try exact Logic.I.
  - destruct N as (-> & _). reflexivity.
  - destruct N as (-> & I' & E'). cbn. eauto.
  - destruct N as (-> & cv & -> & -> & I' & E' & Np).
    destruct (append_ok p' _ l (pv_val v) I') as [I2 E2].
    eapply rrel_ext; [eapply EXT_trans; [exact E'|exact E2]|].
    replace (ci_more (ci_step (cobjs c o)))
      with (ci_more (cobjs (cappend (set_obj c o (ci_step (cobjs c o))) l (pv_val v)) o)).
    2:{ destruct (cappend_objs (set_obj c o (ci_step (cobjs c o))) l (pv_val v)) as [-> _].
        cbn. now rewrite upd_same. }
    apply IH; auto. cbn. lia.
  - destruct N as (-> & I' & E'). cbn. eauto.
Qed.

Lemma best_ok : forall fuel big p c o m,
  INV p c -> o < pnobj p ->
  rrel p c (p_best true fuel big o m p) (cbest fuel big o m c).
Proof.
  induction fuel as [|f IH]; intros big p c o m I Ho; cbn [p_best cbest];
    pose proof (obj_next p c o I Ho) as N;
    destruct (p_next true p (PcObj o false)) as [v a p'|a p'|]; try exact Logic.I.
  - destruct N as (-> & _). reflexivity.
  - destruct N as (-> & I' & E'). cbn. eexists; split; [reflexivity|]. split; [now apply INV_emit|].
    eapply EXT_trans; [exact E'|apply EXT_emit].
  - destruct N as (-> & cv & -> & -> & I' & E' & Np).
    destruct (if big then vlt m (pv_val v) else vlt (pv_val v) m) as [b|].
    + eapply rrel_ext; [exact E'|]. apply IH; auto. lia.
    + cbn. eauto.
  - destruct N as (-> & I' & E'). cbn. eexists; split; [reflexivity|]. split; [now apply INV_emit|].
    eapply EXT_trans; [exact E'|apply EXT_emit].
Qed.

Lemma minmax_ok fuel big p c o :
  INV p c -> o < pnobj p ->
  rrel p c (p_minmax true fuel big o p) (cminmax fuel big o c).
Proof.
  intros I Ho. unfold p_minmax, cminmax. cbn [orb]. pose proof (obj_next p c o I Ho) as N.
  destruct (p_next true p (PcObj o false)) as [v a p'|a p'|]; try exact Logic.I.
  destruct N as (_ & cv & -> & -> & I' & E' & Np).
  eapply rrel_ext; [exact E'|]. apply best_ok; auto. lia.
Qed.

Lemma exec_ok : forall fuel,
  (forall pe ce s p c, INV p c -> ENV p c pe ce ->
     rrel p c (p_exec true fuel pe s p) (cexec fuel ce s c)) /\
  (forall pe ce en cs ds body p c, INV p c -> ENV p c pe ce -> CUR p c cs ds ->
     rrel p c (p_loop true fuel pe en cs body p) (cloop fuel ce en ds body c)).
Proof.
  induction fuel as [|f [IHe IHl]]; (split; [intros pe ce s p c I E|intros pe ce en cs ds body p c I E R]);
    try reflexivity.
  - assert (ONE : forall p' c', INV p' c' -> EXT p c p' c' -> rrel p c (PDone Nrm p') (CDone Nrm c'))
      by (intros; cbn; eauto).
    assert (RAISE : rrel p c (PRaise p) (CRaise c)) by (cbn; eauto).
    destruct s; cbn [p_exec cexec].
    + apply ONE; auto using EXT_refl.
    + pose proof (IHe pe ce s1 p c I E) as H1. destruct (p_exec true f pe s1 p) as [k p1|p1| |]; cbn in H1.
      * destruct H1 as (c1 & -> & I1 & E1).
        destruct k; [|cbn; eauto|cbn; eauto].
        eapply rrel_ext; [exact E1|]. apply IHe; auto. eapply ENV_ext; eauto.
      * destruct H1 as (c1 & -> & I1). cbn. eauto.
      * exact Logic.I.
      * rewrite H1. reflexivity.
    + pose proof (eval_ok p c pe ce e I E) as H. destruct (p_eval true p pe e); try exact Logic.I; rewrite H; auto.
      apply ONE; auto using INV_emit, EXT_emit.
    + pose proof (eval_ok p c pe ce e I E) as H. destruct (p_eval true p pe e); try exact Logic.I; rewrite H; auto.
      destruct (append_ok p c l a I). apply ONE; auto.
    + destruct (p_pop p l) as [p1|] eqn:P.
      * destruct (pop_ok p c l p1 I P) as (c1 & -> & I1 & E1). apply ONE; auto.
      * rewrite (pop_none p c l I P). auto.
    + pose proof (eval_ok p c pe ce k I E) as H. destruct (p_eval true p pe k) as [[z|t]| |];
        try exact Logic.I; rewrite H; auto.
      pose proof (eval_ok p c pe ce e I E) as H'. destruct (p_eval true p pe e) as [v| |];
        try exact Logic.I; rewrite H'; auto.
      pose proof (set_ok p c l z v I) as S. destruct (p_set p l z v) as [p1|].
      * destruct S as (c1 & -> & I1 & E1). apply ONE; auto.
      * rewrite S. auto.
    + apply ONE; [|apply EXT_new]. apply INV_new; auto. cbn. repeat split; auto. lia.
    + apply ONE; [|apply EXT_new]. apply INV_new; auto. cbn. rewrite (i_len _ _ I). repeat split; auto.
    + rewrite <- (i_vars _ _ I). destruct (pvars p i) as [o|] eqn:V; auto.
      apply extend_ok; auto. eapply i_varb; eauto.
    + rewrite <- (i_vars _ _ I). destruct (pvars p i) as [o|] eqn:V; auto.
      apply minmax_ok; auto. eapply i_varb; eauto.
    + rewrite <- (i_vars _ _ I). destruct (pvars p i) as [o|] eqn:V; auto.
      apply minmax_ok; auto. eapply i_varb; eauto.
    + pose proof (eval_ok p c pe ce (EVar x) I E) as H. destruct (p_eval true p pe (EVar x)) as [w| |];
        try exact Logic.I; rewrite H; auto.
      destruct (veqb w v); apply IHe; auto.
    + cbn. eauto using EXT_refl.
    + cbn. eauto using EXT_refl.
    + pose proof (starts_ok p c cs I) as S. destruct (p_starts p cs) as [cu|].
      * destruct S as (ds & -> & R). apply IHl; auto.
      * rewrite S. auto.
  - cbn [p_loop cloop].
    assert (STOP : forall e p1, p_turn true false p e cs = Stop p1 ->
       rrel p c (PDone Nrm p1) (if forallb (fun x => cmore (snd x)) ds
         then match cpos ce en with
              | Some (env1, en1) =>
                  match cturn c env1 ds with
                  | Some (env2, cu1, s1) =>
                      match cexec f env2 body s1 with
                      | CDone Brk s2 => CDone Nrm s2
                      | CDone _ s2 => cloop f ce en1 cu1 body s2
                      | r => r
                      end
                  | None => CUB
                  end
              | None => CUB
              end
         else CDone Nrm c)).
    { intros e p1 T. destruct (turn_stop _ _ _ _ _ _ _ I R T) as (_ & -> & I1 & E1). cbn. eauto. }
    destruct (p_pos true pe en) as [[pe1 en1]|] eqn:Po.
    + destruct (p_turn true false p pe1 cs) as [pe2 cs1 p1|p1|] eqn:T; [|eapply STOP; eauto|exact Logic.I].
      assert (Q : exists ce1, cpos ce en = Some (ce1, en1) /\ ENV p c pe1 ce1).
      { destruct en as [[k n]|]; cbn [p_pos cpos andb] in *.
        - destruct (n + 1 <? two63)%Z; cbn [negb] in Po; [|discriminate]. injection Po as <- <-.
          eexists; split; [reflexivity|]. constructor; auto. split; auto. cbn. eauto.
        - injection Po as <- <-. eauto. }
      destruct Q as (ce1 & -> & E1).
      destruct (turn_ok _ _ _ _ _ _ _ _ _ _ I E1 R T) as (-> & ce2 & ds1 & c1 & -> & I1 & X1 & E2 & R1).
      pose proof (IHe pe2 ce2 body p1 c1 I1 E2) as B.
      destruct (p_exec true f pe2 body p1) as [k p2|p2| |]; cbn in B.
      * destruct B as (c2 & -> & I2 & X2). pose proof (EXT_trans _ _ _ _ _ _ X1 X2) as X.
        destruct k; [| cbn; eauto |];
          (eapply rrel_ext; [exact X|]; apply IHl; [exact I2|eapply ENV_ext; [exact X|exact E]|eapply CUR_ext; [exact X2|exact R1]]).
      * destruct B as (c2 & -> & I2). cbn. eauto.
      * exact Logic.I.
      * rewrite B. reflexivity.
    + destruct (p_turn true false p pe cs) as [pe2 cs1 p1|p1|] eqn:T; try exact Logic.I.
      eapply STOP; eauto.
Qed.

Lemma INV_init : INV pinit cinit.
Proof.
  constructor; cbn; auto; try lia; intros; try discriminate.
  - destruct k; discriminate.
  - destruct k; discriminate.
Qed.

(** ** The strict run is Python's run *)

Lemma next_plain s a : p_next true s a <> Bad -> p_next true s a = p_next false s a.
Proof.
  destruct a as [i|o had]; cbn; [destruct (pi_stale s i)|destruct (pi_stale s (pobjs s o))]; auto; try congruence.
  destruct (pi_at s (pobjs s o)) as [[l k]|]; auto. destruct had; congruence.
Qed.

Lemma turn_plain : forall cs took s env,
  p_turn true took s env cs <> BadTurn -> p_turn true took s env cs = p_turn false took s env cs.
Proof.
  induction cs as [|[x a] cs IH]; intros took s env H; cbn [p_turn] in *; auto.
  assert (N : p_next true s a <> Bad) by (intro E; rewrite E in H; congruence).
  rewrite <- (next_plain s a N). destruct (p_next true s a) as [v a' s1|a' s1|]; [|destruct took; cbn in *; congruence|congruence].
  match type of H with context [p_turn true ?t s1 ?e cs] =>
    assert (T : p_turn true t s1 e cs <> BadTurn) by (intro E; rewrite E in H; congruence);
    rewrite <- (IH t s1 e T); reflexivity
  end.
Qed.

Lemma extend_plain : forall fuel l o s, p_extend true fuel l o s <> PDisturbed ->
  p_extend true fuel l o s = p_extend false fuel l o s.
Proof.
  induction fuel as [|f IH]; intros l o s H; cbn [p_extend] in *;
    (assert (N : p_next true s (PcObj o false) <> Bad) by (intro E; rewrite E in H; congruence));
    rewrite <- (next_plain s _ N); destruct (p_next true s (PcObj o false)); auto; congruence.
Qed.

Lemma best_plain : forall fuel big o m s, p_best true fuel big o m s <> PDisturbed ->
  p_best true fuel big o m s = p_best false fuel big o m s.
Proof.
  induction fuel as [|f IH]; intros big o m s H; cbn [p_best] in *;
    (assert (N : p_next true s (PcObj o false) <> Bad) by (intro E; rewrite E in H; congruence));
    rewrite <- (next_plain s _ N); destruct (p_next true s (PcObj o false)); auto; try congruence.
  match goal with |- context [match ?x with Some _ => _ | None => _ end] => destruct x end; auto.
Qed.

Lemma minmax_plain fuel big o s : p_minmax true fuel big o s <> PDisturbed ->
  p_minmax true fuel big o s = p_minmax false fuel big o s.
Proof.
  unfold p_minmax. intro H.
  assert (N : p_next true s (PcObj o false) <> Bad) by (intro E; rewrite E in H; congruence).
  rewrite <- (next_plain s _ N). destruct (p_next true s (PcObj o false)); auto; try congruence.
  now apply best_plain.
Qed.

Lemma eval_plain s env e : p_eval true s env e <> Unsafe -> p_eval true s env e = p_eval false s env e.
Proof.
  destruct e; cbn; auto. destruct (plook env x); auto. destruct (pv_gone s p); auto. congruence.
Qed.

Lemma exec_plain : forall fuel,
  (forall env s p, p_exec true fuel env s p <> PDisturbed ->
     p_exec true fuel env s p = p_exec false fuel env s p) /\
  (forall env en cs body p, p_loop true fuel env en cs body p <> PDisturbed ->
     p_loop true fuel env en cs body p = p_loop false fuel env en cs body p).
Proof.
  induction fuel as [|f [IHe IHl]]; (split; [intros env s p H|intros env en cs body p H]); auto.
  - assert (EV : forall e, p_eval true p env e = Unsafe \/ p_eval true p env e = p_eval false p env e).
    { intros e. pose proof (eval_plain p env e). destruct (p_eval true p env e); auto; right; apply H0; discriminate. }
    destruct s; cbn [p_exec] in *; auto.
    + assert (N : p_exec true f env s1 p <> PDisturbed) by (intro X; rewrite X in H; congruence).
      rewrite <- (IHe _ _ _ N). destruct (p_exec true f env s1 p) as [[]| | |]; auto.
    + destruct (EV e) as [X|<-]; [rewrite X in H; congruence|reflexivity].
    + destruct (EV e) as [X|<-]; [rewrite X in H; congruence|reflexivity].
    + destruct (EV k) as [X|<-]; [rewrite X in H; congruence|].
      destruct (p_eval true p env k) as [[z|t]| |]; auto.
      destruct (EV e) as [X|<-]; [rewrite X in H; congruence|reflexivity].
    + destruct (pvars p i); auto. now apply extend_plain.
    + destruct (pvars p i); auto. now apply minmax_plain.
    + destruct (pvars p i); auto. now apply minmax_plain.
    + destruct (EV (EVar x)) as [X|<-]; [rewrite X in H; congruence|].
      destruct (p_eval true p env (EVar x)) as [w| |]; auto. destruct (veqb w v); auto.
    + destruct (p_starts p cs); auto.
  - cbn [p_loop] in *.
    destruct (p_pos true env en) as [[env1 en1]|] eqn:Po.
    + assert (Po' : p_pos false env en = Some (env1, en1)).
      { destruct en as [[k n]|]; cbn [p_pos andb] in *; auto.
        destruct (n + 1 <? two63)%Z; cbn [negb] in *; congruence. }
      rewrite Po'.
      assert (N : p_turn true false p env1 cs <> BadTurn) by (intro X; rewrite X in H; congruence).
      rewrite <- (turn_plain _ _ _ _ N). destruct (p_turn true false p env1 cs) as [env2 cs1 p1| |]; auto.
      assert (N2 : p_exec true f env2 body p1 <> PDisturbed) by (intro X; rewrite X in H; congruence).
      rewrite <- (IHe _ _ _ N2). destruct (p_exec true f env2 body p1) as [[]| | |]; auto.
    + assert (T : exists p1, p_turn true false p env cs = Stop p1) by
        (destruct (p_turn true false p env cs); eauto; congruence).
      destruct T as (p1 & T). rewrite T.
      (* the count does not matter for a turn that stops *)
      assert (ANY : forall cs took s e e' s1, p_turn true took s e cs = Stop s1 -> p_turn true took s e' cs = Stop s1).
      { clear. induction cs as [|[x a] cs IH]; intros took s e e' s1; cbn [p_turn]; [discriminate|].
        destruct (p_next true s a) as [v a' s2|a' s2|]; auto.
        match goal with |- context [p_turn true ?t s2 ?e1 cs] =>
          destruct (p_turn true t s2 e1 cs) eqn:T; try discriminate
        end.
        intros [= <-]. erewrite IH; eauto. }
      destruct en as [[k n]|]; [|discriminate].
      cbn [p_pos andb].
      assert (T' : p_turn true false p ((k, mkV (Num n) None) :: env) cs = Stop p1) by (eapply ANY; eauto).
      rewrite <- turn_plain by congruence. rewrite T'. reflexivity.
Qed.

(** ** Calm programs are never disturbed *)

Definition fresh_env (W : list nat) (p : pst) (env : penv) : Prop :=
  Forall (fun xv => match pv_from (snd xv) with
                    | None => True
                    | Some (l, k, n) => In l W /\ n = pset p l k
                    end) env.

Definition fresh_cur (W : list nat) (p : pst) (cs : list (nat * pcur)) : Prop :=
  Forall (fun xc => match snd xc with
                    | PcOwn (PFwd l _ v) => In l W /\ v = pver p l
                    | PcOwn _ => False
                    | PcObj _ _ => False
                    end) cs.

Definition keeps (W : list nat) (p p' : pst) : Prop :=
  forall l, In l W -> pver p' l = pver p l /\ forall k, pset p' l k = pset p l k.

Definition quiet (W : list nat) (p : pst) (r : pres) : Prop :=
  match r with
  | PDone _ p' => keeps W p p'
  | PRaise _ => True
  | PDisturbed => False
  | PFuel => True
  end.

Lemma keeps_trans W p p1 p2 : keeps W p p1 -> keeps W p1 p2 -> keeps W p p2.
Proof.
  intros A B l H. destruct (A l H) as [A1 A2]. destruct (B l H) as [B1 B2].
  split; [congruence|]. intro k. now rewrite B2, A2.
Qed.

Lemma quiet_trans W p p1 r : keeps W p p1 -> quiet W p1 r -> quiet W p r.
Proof. intros K. destruct r; cbn; auto. intro. eapply keeps_trans; eauto. Qed.

Lemma fresh_env_keeps W p p' env : keeps W p p' -> fresh_env W p env -> fresh_env W p' env.
Proof.
  intros K H. eapply Forall_impl; [|exact H]. intros [x v]. cbn.
  destruct (pv_from v) as [[[l k] n]|]; auto. intros [A ->]. split; auto.
  destruct (K l A) as [_ B]. now rewrite B.
Qed.

Lemma fresh_env_mono W W' p env : incl W W' -> fresh_env W p env -> fresh_env W' p env.
Proof.
  intros K H. eapply Forall_impl; [|exact H]. intros [x v]. cbn.
  destruct (pv_from v) as [[[l k] n]|]; auto. intros [A ->]. auto.
Qed.

Lemma keeps_mono W W' p p' : incl W W' -> keeps W' p p' -> keeps W p p'.
Proof. intros K H l A. apply H, K, A. Qed.

Lemma fresh_look W p env x : fresh_env W p env -> p_eval true p env (EVar x) <> Unsafe.
Proof.
  intros H. cbn. induction H as [|[y v] env H1 H IH]; cbn; [discriminate|].
  destruct (x =? y); auto. unfold pv_gone. cbn in H1. destruct (pv_val v); [discriminate|].
  destruct (pv_from v) as [[[l k] n]|]; [|discriminate]. destruct H1 as [_ ->].
  rewrite Nat.eqb_refl. discriminate.
Qed.

Lemma fresh_eval W p env e : fresh_env W p env -> p_eval true p env e <> Unsafe.
Proof. destruct e; [apply fresh_look|cbn; discriminate]. Qed.

Lemma calm_turn W : forall cs p env,
  fresh_env W p env -> fresh_cur W p cs ->
  match p_turn true false p env cs with
  | Turn env' cs' p' => p' = p /\ fresh_env W p env' /\ fresh_cur W p cs'
  | Stop p' => p' = p
  | BadTurn => False
  end.
Proof.
  induction cs as [|[x a] cs IH]; intros p env E C; cbn [p_turn]; [auto|].
  inversion C as [|? ? C1 C2]; subst. cbn in C1.
  destruct a as [[|l k v|l k v]|]; try tauto. destruct C1 as [Hl ->].
  unfold p_next. cbn [andb pi_stale pi_at pi_step]. rewrite Nat.eqb_refl. cbn [negb].
  destruct (k <? length (plists p l)); [|auto].
  assert (E' : fresh_env W p ((x, p_item p l k) :: env)) by (constructor; auto; cbn; auto).
  specialize (IH p _ E' C2).
  destruct (p_turn true false p ((x, p_item p l k) :: env) cs) as [env' cs' p'|p'|]; auto.
  destruct IH as (-> & A & B). split; auto. split; auto. constructor; auto. cbn. auto.
Qed.

Lemma keeps_bump W p l f : ~ In l W ->
  forall p', pver p' = upd (pver p) l f \/ pver p' = pver p ->
  (pset p' = pset p \/ exists g, pset p' = upd (pset p) l g) -> keeps W p p'.
Proof.
  intros N p' A B l' H. assert (l' <> l) by (intros ->; auto). split.
  - destruct A as [-> | ->]; auto. now rewrite upd_other.
  - intro k. destruct B as [-> |[g ->]]; auto. now rewrite upd_other.
Qed.

Lemma keeps_refl W p : keeps W p p.
Proof. intros l _. auto. Qed.

Lemma calm_exec M : forall fuel,
  (M + Z.of_nat fuel < two63)%Z ->
  (forall W env s p, calm M W s -> fresh_env W p env -> quiet W p (p_exec true fuel env s p)) /\
  (forall W W' env en cs body p, incl W W' -> calm M W' body -> fresh_env W p env -> fresh_cur W' p cs ->
     match en with Some (_, n) => (n + Z.of_nat fuel < two63)%Z | None => True end ->
     quiet W p (p_loop true fuel env en cs body p)).
Proof.
  induction fuel as [|f IH]; intros HM; [split; cbn; auto|].
  rewrite Nat2Z.inj_succ in HM. destruct (IH ltac:(lia)) as [IHe IHl]. clear IH. split.
  - intros W env s p C E. pose proof (fresh_eval W p env) as EV.
    destruct s; cbn [p_exec]; cbn [calm] in C; try tauto.
    + cbn. apply keeps_refl.
    + destruct C as [C1 C2]. pose proof (IHe W env s1 p C1 E) as Q.
      destruct (p_exec true f env s1 p) as [[] p1|p1| |]; cbn in Q; auto.
      eapply quiet_trans; [exact Q|]. apply IHe; auto. eapply fresh_env_keeps; eauto.
    + specialize (EV e E). destruct (p_eval true p env e); cbn; auto; try congruence.
      intros l _. auto.
    + specialize (EV e E). destruct (p_eval true p env e); cbn; auto; try congruence.
      eapply keeps_bump; cbn; eauto. left. reflexivity.
    + destruct (p_pop p l) as [p1|] eqn:P; cbn; auto. unfold p_pop in P.
      destruct (plists p l); [discriminate|]. injection P as <-.
      eapply keeps_bump; cbn; eauto. left. reflexivity.
    + pose proof (EV k E) as EK. destruct (p_eval true p env k) as [[z|t]| |]; cbn; auto; try congruence.
      specialize (EV e E). destruct (p_eval true p env e) as [v| |]; cbn; auto; try congruence.
      destruct (p_set p l z v) as [p1|] eqn:P; cbn; auto. unfold p_set in P.
      cbv zeta in P. match type of P with (if ?b then _ else _) = _ => destruct b end; [|discriminate].
      injection P as <-. eapply (keeps_bump _ _ _ 0); cbn; eauto.
    + destruct C as [C1 C2]. specialize (EV (EVar x) E).
      destruct (p_eval true p env (EVar x)) as [w| |]; cbn; auto; try congruence.
      destruct (veqb w v); apply IHe; auto.
    + apply keeps_refl.
    + apply keeps_refl.
    + destruct C as (C1 & C2 & C3).
      set (W' := _ ++ W) in C3.
      destruct (p_starts p cs) as [cu|] eqn:S; [|exact Logic.I].
      assert (F : fresh_cur W' p cu).
      { assert (G : forall cs cu V, Forall (fun xa : nat * src => exists l, src_list (snd xa) = Some l) cs ->
                  p_starts p cs = Some cu ->
                  incl (flat_map (fun xa => match src_list (snd xa) with Some l => [l] | None => [] end) cs) V ->
                  fresh_cur V p cu).
        { clear. induction cs as [|[x a] cs IH]; intros cu V H S Hi; cbn in S.
          - injection S as <-. constructor.
          - inversion H as [|? ? [l Hl] H']; subst. cbn in Hl.
            destruct a as [l0|l0|i0]; cbn in Hl; try discriminate; cbn in S; injection Hl as <-;
              destruct (p_starts p cs) as [r|]; try discriminate; injection S as <-;
              (constructor; [cbn; split; [apply Hi; cbn; auto|reflexivity]
                            |apply (IH r V H' eq_refl); intros y Hy; apply Hi; cbn; auto]). }
        apply (G cs cu W' C2 S). unfold W'. apply incl_appl, incl_refl. }
      apply (IHl W W'); auto.
      * unfold W'. apply incl_appr, incl_refl.
      * destruct en as [[k n]|]; auto. lia.
  - intros W W' env en cs body p Hi C E F Hn. cbn [p_loop].
    assert (P : exists env1 en1, p_pos true env en = Some (env1, en1) /\ fresh_env W p env1 /\
              match en1 with Some (_, n) => (n + Z.of_nat f < two63)%Z | None => True end).
    { destruct en as [[k n]|]; cbn [p_pos andb].
      - rewrite Nat2Z.inj_succ in Hn. assert (L : (n + 1 <? two63)%Z = true) by (apply Z.ltb_lt; lia).
        rewrite L. cbn [negb]. do 2 eexists. split; [reflexivity|]. split; [constructor; cbn; auto|].
        lia.
      - eauto 10. }
    destruct P as (env1 & en1 & -> & E1 & Hn1).
    pose proof (calm_turn W' cs p env1 (fresh_env_mono W W' p env1 Hi E1) F) as T.
    destruct (p_turn true false p env1 cs) as [env2 cs2 p2|p2|]; [| |tauto].
    + destruct T as (-> & E2 & F2). pose proof (IHe W' env2 body p C E2) as Q.
      destruct (p_exec true f env2 body p) as [k p1|p1| |]; cbn in Q; auto.
      assert (K : keeps W p p1) by (eapply keeps_mono; eauto).
      assert (L : quiet W p (p_loop true f env en1 cs2 body p1)).
      { eapply quiet_trans; [exact K|]. apply (IHl W W'); auto.
        - eapply fresh_env_keeps; eauto.
        - eapply Forall_impl; [|exact F2]. intros [x c]. cbn.
          destruct c as [[|l q v|l q v]|]; auto. intros [A ->]. split; auto. destruct (Q l A) as [B _]. auto. }
      destruct k; auto.
    + subst. cbn. apply keeps_refl.
Qed.

(** ** Whole programs *)

Definition appends (p : pst) (l : nat) (vs : list val) : pst :=
  fold_left (fun p v => p_append p l v) vs p.

Lemma fill_ok : forall vs f env l p, length vs < f ->
  p_exec true (S f) env (fill l vs) p = PDone Nrm (appends p l vs).
Proof.
  induction vs as [|v vs IH]; intros f env l p H; [reflexivity|].
  cbn [length] in H. destruct f as [|f]; [lia|]. cbn [fill].
  change (p_exec true (S (S f)) env (SSeq (SAppend l (EVal v)) (fill l vs)) p)
    with (p_exec true (S f) env (fill l vs) (p_append p l v)).
  rewrite IH by lia. reflexivity.
Qed.

Lemma appends_facts : forall vs p l,
  plists (appends p l vs) l = plists p l ++ vs /\
  (forall l', l' <> l -> plists (appends p l vs) l' = plists p l') /\
  pobjs (appends p l vs) = pobjs p /\ pnobj (appends p l vs) = pnobj p /\
  pvars (appends p l vs) = pvars p /\ pout (appends p l vs) = pout p.
Proof.
  induction vs as [|v vs IH]; intros p l; cbn [appends fold_left].
  - rewrite app_nil_r. auto 10.
  - destruct (IH (p_append p l v) l) as (A & B & C & D & E & F). fold (appends (p_append p l v) l vs).
    rewrite A, C, D, E, F. cbn. rewrite upd_same, <- app_assoc. repeat split; auto.
    intros l' N. rewrite B by auto. cbn. now rewrite upd_other.
Qed.

Lemma seq_next f env a b p p1 :
  p_exec true f env a p = PDone Nrm p1 ->
  p_exec true (S f) env (SSeq a b) p = p_exec true f env b p1.
Proof. intro H. cbn. now rewrite H. Qed.

(** A loop over two lists that shows both items. *)
Lemma zip_loop : forall n f env A B x y a b i va vb p,
  x <> y -> plists p a = A -> plists p b = B -> va = pver p a -> vb = pver p b ->
  i <= length A -> i <= length B -> n = min (length A) (length B) - i -> n + 3 <= f ->
  exists p', p_loop true f env None [(x, PcOwn (PFwd a i va)); (y, PcOwn (PFwd b i vb))] (show2 x y) p
             = PDone Nrm p' /\
             pout p' = pout p ++ flat_map both (combine (skipn i A) (skipn i B)).
Proof.
  induction n as [|n IH]; intros f env A B x y a b i va vb p Hxy HA HB Hva Hvb Hi Hj Hn Hf;
    destruct f as [|f]; try lia; cbn [p_loop p_pos];
    assert (T : forall e, p_turn true false p e [(x, PcOwn (PFwd a i va)); (y, PcOwn (PFwd b i vb))] =
      if i <? length A then
        if i <? length B then
          Turn ((y, p_item p b i) :: (x, p_item p a i) :: e)
            [(x, PcOwn (PFwd a (S i) va)); (y, PcOwn (PFwd b (S i) vb))] p
        else Stop p
      else Stop p) by
     (intro e; cbn [p_turn]; unfold p_next; cbn [andb pi_stale pi_at pi_step];
      rewrite Hva, !Nat.eqb_refl; cbn [negb]; rewrite HA; destruct (i <? length A); auto;
      cbn [pi_stale pi_at]; rewrite Hvb, Nat.eqb_refl; cbn [negb]; rewrite HB; destruct (i <? length B); auto);
    rewrite T; clear T.
  - destruct (i <? length A) eqn:LA.
    + apply Nat.ltb_lt in LA. assert (LB : i <? length B = false) by (apply Nat.ltb_ge; lia). rewrite LB.
      eexists; split; [reflexivity|]. apply Nat.ltb_ge in LB. rewrite (skipn_all2 B) by lia.
      now rewrite combine_nil, app_nil_r.
    + eexists; split; [reflexivity|]. apply Nat.ltb_ge in LA. rewrite (skipn_all2 A) by lia.
      now rewrite app_nil_r.
  - assert (LA : i < length A) by lia. assert (LB : i < length B) by lia.
    rewrite (proj2 (Nat.ltb_lt _ _) LA), (proj2 (Nat.ltb_lt _ _) LB).
    destruct f as [|[|f]]; try lia.
    set (env2 := (y, p_item p b i) :: (x, p_item p a i) :: env).
    assert (X : p_exec true (S (S f)) env2 (show2 x y) p
                = PDone Nrm (p_emit (p_emit p (nth i A (Num 0))) (nth i B (Num 0)))).
    { cbn [p_exec show2 p_eval plook env2]. rewrite (proj2 (Nat.eqb_neq x y) Hxy), !Nat.eqb_refl.
      unfold pv_gone, p_item. cbn. rewrite HA, HB, !Nat.eqb_refl.
      destruct (nth i A (Num 0)), (nth i B (Num 0)); cbn; rewrite ?Nat.eqb_refl; reflexivity. }
    rewrite X.
    destruct (IH (S (S f)) env A B x y a b (S i) va vb
                (p_emit (p_emit p (nth i A (Num 0))) (nth i B (Num 0)))) as (p' & E & O); auto; try lia.
    exists p'. split; [exact E|]. rewrite O. cbn [p_emit pout]. rewrite <- !app_assoc. f_equal.
    assert (SK : forall T (d : T) xs j, j < length xs -> skipn j xs = nth j xs d :: skipn (S j) xs).
    { clear. intros T d. induction xs as [|q xs IH]; intros [|j] H; cbn in *; try lia; auto.
      apply IH. lia. }
    rewrite (SK _ (Num 0) A i LA), (SK _ (Num 0) B i LB). reflexivity.
Qed.

(** A counted loop. *)
Lemma enum_loop : forall n f env A k y a i va c p,
  k <> y -> plists p a = A -> va = pver p a ->
  i <= length A -> n = length A - i -> n + 3 <= f -> (c + Z.of_nat n < two63)%Z ->
  exists p', p_loop true f env (Some (k, c)) [(y, PcOwn (PFwd a i va))] (show2 k y) p
             = PDone Nrm p' /\
             pout p' = pout p ++ flat_map both (counted c (skipn i A)).
Proof.
  induction n as [|n IH]; intros f env A k y a i va c p Hky HA Hva Hi Hn Hf Hc;
    destruct f as [|f]; try lia.
  - assert (LA : i <? length A = false) by (apply Nat.ltb_ge; lia).
    rewrite skipn_all2 by lia. cbn [counted flat_map]. rewrite app_nil_r.
    exists p. split; auto. cbn [p_loop].
    assert (T : forall e, p_turn true false p e [(y, PcOwn (PFwd a i va))] = Stop p).
    { intros e. cbn [p_turn]. unfold p_next. cbn [andb pi_stale pi_at pi_step].
      now rewrite Hva, !Nat.eqb_refl, HA, LA. }
    destruct (p_pos true env (Some (k, c))) as [[e1 n1]|]; now rewrite T.
  - assert (LA : i < length A) by lia. rewrite Nat2Z.inj_succ in Hc. cbn [p_loop p_pos andb].
    assert (L : (c + 1 <? two63)%Z = true) by (apply Z.ltb_lt; lia). rewrite L. cbn [negb p_turn].
    unfold p_next; cbn [andb pi_stale pi_at pi_step]; rewrite Hva, !Nat.eqb_refl; cbn [negb]; rewrite HA.
    rewrite (proj2 (Nat.ltb_lt _ _) LA).
    destruct f as [|[|f]]; try lia.
    match goal with |- context [p_exec true (S (S f)) ?e (show2 k y) p] =>
      assert (X : p_exec true (S (S f)) e (show2 k y) p
                = PDone Nrm (p_emit (p_emit p (Num c)) (nth i A (Num 0)))) end.
    { cbn [p_exec show2 p_eval plook]. rewrite (proj2 (Nat.eqb_neq k y) Hky), !Nat.eqb_refl.
      unfold pv_gone, p_item. cbn. rewrite HA, !Nat.eqb_refl.
      destruct (nth i A (Num 0)); cbn; rewrite ?Nat.eqb_refl; reflexivity. }
    rewrite X.
    destruct (IH (S (S f)) env A k y a (S i) (pver p a) (c + 1)%Z
                (p_emit (p_emit p (Num c)) (nth i A (Num 0)))) as (p' & E & O); auto; try lia.
    exists p'. split; [exact E|]. rewrite O. cbn [p_emit pout]. rewrite <- !app_assoc. f_equal.
    assert (SK : forall T (d : T) xs j, j < length xs -> skipn j xs = nth j xs d :: skipn (S j) xs).
    { clear. intros T d. induction xs as [|q xs IH]; intros [|j] H; cbn in *; try lia; auto.
      apply IH. lia. }
    rewrite (SK _ (Num 0) A i LA). reflexivity.
Qed.

(** Using an iterator up into another list. *)
Lemma extend_fwd : forall n f l a o i A p,
  l <> a -> pobjs p o = PFwd a i (pver p a) -> plists p a = A ->
  i <= length A -> n = length A - i -> n <= f ->
  exists p', p_extend true f l o p = PDone Nrm p' /\ plists p' l = plists p l ++ skipn i A.
Proof.
  induction n as [|n IH]; intros f l a o i A p Hla Ho HA Hi Hn Hf.
  - assert (LA : i <? length A = false) by (apply Nat.ltb_ge; lia).
    rewrite skipn_all2, app_nil_r by lia. exists (p_obj p o PDead).
    destruct f; cbn [p_extend]; unfold p_next; rewrite Ho; cbn [andb pi_stale pi_at];
      rewrite Nat.eqb_refl, HA, LA; auto.
  - assert (LA : i < length A) by lia. destruct f as [|f]; [lia|]. cbn [p_extend].
    unfold p_next. rewrite Ho. cbn [andb pi_stale pi_at]. rewrite Nat.eqb_refl, HA. cbn [negb].
    rewrite (proj2 (Nat.ltb_lt _ _) LA).
    destruct (IH f l a o (S i) A (p_append (p_obj p o (pi_step (PFwd a i (pver p a)))) l (nth i A (Num 0))))
      as (p' & E & L); auto; try lia.
    + cbn. rewrite upd_same. unfold bump. now rewrite upd_other by auto.
    + cbn. now rewrite upd_other by auto.
    + exists p'. cbn [p_item pv_val]. rewrite HA. split; [exact E|]. rewrite L. cbn [p_append plists p_obj]. rewrite upd_same.
      rewrite <- app_assoc. f_equal.
      assert (SK : forall T (d : T) xs j, j < length xs -> skipn j xs = nth j xs d :: skipn (S j) xs).
      { clear. intros T d. induction xs as [|q xs IH]; intros [|j] H; cbn in *; try lia; auto.
        apply IH. lia. }
      now rewrite (SK _ (Num 0) A i LA).
Qed.

Lemma extend_rev : forall n f l a o A p,
  l <> a -> pobjs p o = PRev a n (pver p a) -> plists p a = A -> n <= length A -> n <= f ->
  exists p', p_extend true f l o p = PDone Nrm p' /\ plists p' l = plists p l ++ rev (firstn n A).
Proof.
  induction n as [|n IH]; intros f l a o A p Hla Ho HA Hn Hf.
  - exists (p_obj p o PDead). cbn [firstn rev]. rewrite app_nil_r.
    destruct f; cbn [p_extend]; unfold p_next; rewrite Ho; cbn [andb pi_stale pi_at];
      rewrite Nat.eqb_refl; auto.
  - destruct f as [|f]; [lia|]. cbn [p_extend].
    unfold p_next. rewrite Ho. cbn [andb pi_stale pi_at]. rewrite Nat.eqb_refl, HA. cbn [negb].
    rewrite (proj2 (Nat.ltb_lt n (length A))) by lia.
    destruct (IH f l a o A (p_append (p_obj p o (pi_step (PRev a (S n) (pver p a)))) l (nth n A (Num 0))))
      as (p' & E & L); auto; try lia.
    + cbn. rewrite upd_same. unfold bump. now rewrite upd_other by auto.
    + cbn. now rewrite upd_other by auto.
    + exists p'. cbn [p_item pv_val]. rewrite HA. split; [exact E|]. rewrite L. cbn [p_append plists p_obj]. rewrite upd_same.
      rewrite <- app_assoc. f_equal.
      assert (FN : forall T (d : T) xs j, j < length xs -> firstn (S j) xs = firstn j xs ++ [nth j xs d]).
      { clear. intros T d. induction xs as [|q xs IH]; intros [|j] H; cbn in *; try lia; auto.
        f_equal. apply IH. lia. }
      rewrite (FN _ (Num 0) A n) by lia. rewrite rev_app_distr. reflexivity.
Qed.

Lemma best_fwd : forall zs f big o i a A m p,
  pobjs p o = PFwd a i (pver p a) -> plists p a = A -> skipn i A = map Num zs -> length zs <= f ->
  i + length zs = length A ->
  exists p', p_best true f big o (Num m) p = PDone Nrm p' /\
             pout p' = pout p ++ [Num (least big m zs)].
Proof.
  induction zs as [|z zs IH]; intros f big o i a A m p Ho HA HS Hf Hl.
  - cbn in Hl. assert (LA : i <? length A = false) by (apply Nat.ltb_ge; lia).
    exists (p_emit (p_obj p o PDead) (Num m)).
    destruct f; cbn [p_best]; unfold p_next; rewrite Ho; cbn [andb pi_stale pi_at];
      rewrite Nat.eqb_refl, HA, LA; auto.
  - cbn [length] in *. assert (LA : i < length A) by lia. destruct f as [|f]; [lia|]. cbn [p_best].
    unfold p_next. rewrite Ho. cbn [andb pi_stale pi_at]. rewrite Nat.eqb_refl, HA. cbn [negb].
    rewrite (proj2 (Nat.ltb_lt _ _) LA).
    assert (SK : forall T (d : T) xs j, j < length xs -> skipn j xs = nth j xs d :: skipn (S j) xs).
    { clear. intros T d. induction xs as [|q xs IH]; intros [|j] H; cbn in *; try lia; auto.
      apply IH. lia. }
    rewrite (SK _ (Num 0) A i LA) in HS. cbn [map] in HS. injection HS as H1 H2.
    cbn [p_item pv_val]. rewrite HA, H1. cbn [vlt].
    destruct (IH f big o (S i) a A (if big then Z.max m z else Z.min m z)
                (p_obj p o (pi_step (PFwd a i (pver p a))))) as (p' & E & O); auto; try lia.
    { cbn. now rewrite upd_same. }
    exists p'. split; [|exact O]. rewrite <- E. destruct big; cbn [vlt].
    + destruct (m <? z)%Z eqn:Q; [apply Z.ltb_lt in Q|apply Z.ltb_ge in Q]; do 2 f_equal; lia.
    + destruct (z <? m)%Z eqn:Q; [apply Z.ltb_lt in Q|apply Z.ltb_ge in Q]; do 2 f_equal; lia.
Qed.
