(** Dict and Set against their references. *)
From Coq Require Import Permutation.
From Verif Require Import Base ListAux HashModel HashArith HashTable HashOps HashSpec.
Ltac Zify.zify_post_hook ::= Z.to_euclidean_division_equations.

Lemma to_double_le n : n <= 2 ^ 62 -> to_double n <= 2 ^ 62.
Proof.
  intros H. unfold to_double. destruct (Z.ltb_spec n (2 ^ 53)) as [L|G]; [lia|].
  assert (HL : 53 <= Z.log2 n) by (apply Z.log2_le_pow2; lia).
  assert (HU : Z.log2 n < 63) by (apply Z.log2_lt_pow2; lia).
  set (e := Z.log2 n - 52) in *. assert (E62 : 2 ^ 62 = 2 ^ (62 - e) * 2 ^ e) by (rewrite <- Z.pow_add_r by lia; f_equal; lia).
  assert (0 < 2 ^ e) by (apply Z.pow_pos_nonneg; lia). assert (0 < 2 ^ (62 - e)) by (apply Z.pow_pos_nonneg; lia).
  set (u := 2 ^ e) in *. set (w := 2 ^ (62 - e)) in *. rewrite E62 in *.
  cbv zeta. pose proof (Z.div_mod n u ltac:(lia)) as DM. pose proof (Z.mod_pos_bound n u ltac:(lia)) as MB.
  set (q := n / u) in *. set (r := n mod u) in *. clearbody q r u w. clear E62 HL HU G.
  assert (q * u <= w * u) by lia.
  destruct ((2 * r <? u) || ((2 * r =? u) && Z.even q)) eqn:C; [lia|].
  assert (0 < r). { apply orb_false_iff in C. destruct C as (C & _). apply Z.ltb_ge in C. lia. }
  assert (q < w) by nia. nia.
Qed.

Section Gen.
Context {E K : Type}.
Variable kof : E -> K.
Variable hash : K -> Z.
Variable eqb : K -> K -> bool.
Hypothesis LAW : lawful hash eqb.

Lemma kd_unique l x y k : kdistinct kof eqb l -> In x l -> In y l -> eqb k (kof x) = true -> eqb k (kof y) = true -> x = y.
Proof.
  intros KD Hx Hy Qx Qy.
  assert (T : eqb (kof x) (kof y) = true) by (apply (law_trans _ _ LAW _ k); [rewrite (law_sym _ _ LAW); assumption|assumption]).
  induction KD as [|z l H KD IH]; [destruct Hx|]. destruct Hx as [->|Hx], Hy as [->|Hy].
  - reflexivity.
  - rewrite (H y Hy) in T. discriminate T.
  - rewrite (law_sym _ _ LAW), (H x Hx) in T. discriminate T.
  - apply IH; assumption.
Qed.
Lemma kd_filter l p k : kdistinct kof eqb l -> In p l -> eqb k (kof p) = true ->
  Permutation (p :: filter (fun y => negb (eqb k (kof y))) l) l.
Proof.
  intros KD. induction KD as [|z l H KD IH]; intros Hp Q; [destruct Hp|]. cbn [filter]. destruct Hp as [->|Hp].
  - rewrite Q. cbn [negb]. constructor. rewrite <- (app_nil_l l) at 2.
    assert (F : filter (fun y => negb (eqb k (kof y))) l = l); [|rewrite F; reflexivity].
    clear IH KD. induction l as [|y l IH]; [reflexivity|]. cbn [filter].
    assert (eqb k (kof y) = false) as ->.
    { destruct (eqb k (kof y)) eqn:Qy; [|reflexivity]. rewrite <- (H y (or_introl eq_refl)).
      symmetry. apply (law_trans _ _ LAW _ k); [rewrite (law_sym _ _ LAW); assumption|assumption]. }
    cbn [negb]. f_equal. apply IH. intros y' Hy'. apply H. right. assumption.
  - assert (eqb k (kof z) = false) as ->.
    { destruct (eqb k (kof z)) eqn:Qz; [|reflexivity]. rewrite <- (H p Hp). symmetry.
      apply (law_trans _ _ LAW _ k); [rewrite (law_sym _ _ LAW); assumption|assumption]. }
    cbn [negb]. rewrite perm_swap. constructor. apply IH; assumption.
Qed.
Lemma filter_absent l k : (forall y, In y l -> eqb k (kof y) = false) -> filter (fun y => negb (eqb k (kof y))) l = l.
Proof.
  induction l as [|y l IH]; intros H; [reflexivity|]. cbn [filter]. rewrite H by (left; reflexivity). cbn [negb]. f_equal. apply IH. intros; apply H; right; assumption.
Qed.
End Gen.

(** ** Dict *)
Section DictProofs.
Context {K V : Type}.
Variable hash : K -> Z.
Variable eqb : K -> K -> bool.
Variable cap : Z.
Variable fuel : nat.
Variable none : V.
Hypothesis LAW : lawful hash eqb.
Hypothesis MACH : machine cap fuel.

Notation wf := (wf (E := K * V) fst hash eqb).
Notation wfb := (wfb (E := K * V) fst hash eqb).
Notation kd := (kdistinct (E := K * V) fst eqb).
Definition rep (t : table (K * V)) (l : list (K * V)) : Prop := wf t /\ Permutation (vals t) l.

Lemma HC : cap <= 2 ^ 52. Proof. apply MACH. Qed.
Lemma HF : 52 <= Z.of_nat fuel. Proof. destruct MACH. lia. Qed.
Lemma lsym : forall a b, eqb a b = eqb b a. Proof. apply (law_sym _ _ LAW). Qed.
Lemma lhash : forall a b, eqb a b = true -> hash a = hash b. Proof. apply (law_hash _ _ LAW). Qed.

Lemma items_w t : wf t -> items t = Ok (vals t).
Proof. apply (items_ok fst hash eqb); [apply lsym|apply lhash]. Qed.
Lemma rep_kd t l : rep t l -> kd l.
Proof. intros (W & P). apply (kdistinct_perm fst eqb lsym (vals t)); [exact P|]. apply (wf_kd fst hash eqb), W. Qed.
Lemma rep_len t l : rep t l -> num t = Z.of_nat (length l) /\ len (vals t) = Z.of_nat (length l).
Proof. intros (W & P). rewrite (wf_num fst hash eqb t W). unfold len. rewrite (Permutation_length P). auto. Qed.
Lemma rep_in t l p : rep t l -> In p (vals t) <-> In p l.
Proof. intros (W & P). split; apply Permutation_in; [exact P|symmetry; exact P]. Qed.

Lemma get_some l k k' v : kd l -> In (k', v) l -> eqb k k' = true -> ref_get eqb l k = Some v.
Proof.
  intros KD Hp Q. assert (U := fun p H Q' => kd_unique fst hash eqb LAW l p (k', v) k KD H Hp Q' Q). clear KD.
  induction l as [|(k1, v1) l IH]; [destruct Hp|]. cbn [ref_get]. destruct (eqb k k1) eqn:Q1.
  - specialize (U (k1, v1) (or_introl eq_refl) Q1). congruence.
  - destruct Hp as [H|Hp]; [congruence|]. apply IH; [assumption|]. intros p H. apply U. right. assumption.
Qed.
Lemma get_none (l : list (K * V)) k : (forall p, In p l -> eqb k (fst p) = false) -> ref_get eqb l k = None.
Proof.
  induction l as [|(k1, v1) l IH]; intros H; [reflexivity|]. cbn [ref_get]. pose proof (H (k1, v1) (or_introl eq_refl)) as H1; cbn [fst] in H1; rewrite H1.
  apply IH. intros p Hp. apply H. right. assumption.
Qed.
Lemma get_in (l : list (K * V)) k v : ref_get eqb l k = Some v -> exists k', In (k', v) l /\ eqb k k' = true.
Proof.
  induction l as [|(k1, v1) l IH]; cbn [ref_get]; [discriminate|]. destruct (eqb k k1) eqn:Q.
  - intros H. injection H as <-. exists k1. split; [left; reflexivity|assumption].
  - intros H. destruct (IH H) as (k' & I & Q'). exists k'. split; [right; assumption|assumption].
Qed.
Lemma get_absent (l : list (K * V)) k : ref_get eqb l k = None -> forall p, In p l -> eqb k (fst p) = false.
Proof.
  induction l as [|(k1, v1) l IH]; cbn [ref_get]; [intros _ p []|]. destruct (eqb k k1) eqn:Q; [discriminate|].
  intros H p [<-|Hp]; [assumption|apply IH; assumption].
Qed.
Lemma set_present l k k' v v' : kd l -> In (k', v') l -> eqb k k' = true ->
  exists l0, Permutation l ((k', v') :: l0) /\ Permutation (ref_set eqb l k v) ((k', v) :: l0).
Proof.
  intros KD Hp Q. assert (U := fun p H Q' => kd_unique fst hash eqb LAW l p (k', v') k KD H Hp Q' Q). clear KD.
  induction l as [|(k1, v1) l IH]; [destruct Hp|]. cbn [ref_set]. destruct (eqb k k1) eqn:Q1.
  - specialize (U (k1, v1) (or_introl eq_refl) Q1). injection U as -> ->. exists l. split; apply Permutation_refl.
  - destruct Hp as [H|Hp]; [congruence|]. destruct IH as (l0 & P1 & P2); [assumption|intros p H; apply U; right; assumption|].
    exists ((k1, v1) :: l0). split; [rewrite P1; apply perm_swap|rewrite P2; apply perm_swap].
Qed.
Lemma set_absent (l : list (K * V)) k v : (forall p, In p l -> eqb k (fst p) = false) -> ref_set eqb l k v = l ++ [(k, v)].
Proof.
  induction l as [|(k1, v1) l IH]; intros H; [reflexivity|]. cbn [ref_set]. pose proof (H (k1, v1) (or_introl eq_refl)) as H1; cbn [fst] in H1; rewrite H1.
  rewrite IH; [reflexivity|]. intros p Hp. apply H. right. assumption.
Qed.
Lemma set_length (l : list (K * V)) k v : (length (ref_set eqb l k v) <= S (length l))%nat.
Proof. induction l as [|(k1, v1) l IH]; cbn; [lia|]. destruct (eqb k k1); cbn; lia. Qed.

Lemma find_rep t l k : rep t l ->
  match find fst hash eqb t k with
  | Ok (Some i) => exists b k' v, wfb t b /\ 0 <= i < tend t /\ e_val (at_ t i) = Some (k', v) /\ deref t i = Ok (k', v) /\
      In (k', v) l /\ eqb k k' = true /\ ref_get eqb l k = Some v
  | Ok None => ref_get eqb l k = None
  | _ => False
  end.
Proof.
  intros R. pose proof (find_ok fst hash eqb lhash t k (proj1 R)) as F.
  destruct (find fst hash eqb t k) as [[i|]| | |]; try contradiction.
  - destruct F as ((b & W) & Hi & (k', v) & Hv & Hin & Q). exists b, k', v.
    split; [assumption|]. split; [assumption|]. split; [assumption|]. split; [apply (deref_ok fst hash eqb t b); assumption|].
    apply (rep_in t l _ R) in Hin. split; [assumption|]. split; [assumption|].
    apply (get_some l k k' v (rep_kd t l R) Hin Q).
  - apply get_none. intros p Hp. apply F. apply (rep_in t l p R). assumption.
Qed.

Lemma dict_step_ok t l o : rep t l -> reserve_fits o ->
  match dict_step eqb hash cap fuel none t o with
  | Ok (out, t') => same_out out (fst (ref_step eqb l o)) /\ rep t' (snd (ref_step eqb l o))
  | Exn e => e = bad_alloc /\
      match o with
      | DSet _ _ | DEmplace _ _ => cap < 2 ^ (Z.of_nat (length l) + 3)
      | DReserve n => cap < 2 ^ (Z.of_nat (length l) + 3) \/ cap < 8 * to_double n
      | _ => False
      end
  | _ => False
  end.
Proof.
  intros R RF. assert (R' := R). destruct R' as (W & P). destruct (rep_len t l R) as (LN & LV). pose proof (rep_kd t l R) as KD.
  destruct o as [k v|k v|k|k d|k|k d| | | |n]; cbn [dict_step ref_step].
  - (* set *)
    unfold dict_set. pose proof (emplace_wf fst hash eqb cap lsym lhash HC fuel HF t (k, none) W) as EM.
    destruct (emplace fst hash eqb cap fuel t (k, none)) as [(t', (i, [|]))|e| |]; try contradiction; cbn [bind fst snd].
    + destruct EM as ((b & W') & P' & N & Hi & Hv).
      pose proof (geo_facts t' b (proj1 W')). rewrite rdz_at by lia. cbn [bind]. rewrite Hv. rewrite wr_ok by lia. cbn [bind].
      split; [reflexivity|].
      fold (upd t' i {| e_dist := dist t' i; e_val := Some (k, v) |}).
      destruct (overwrite_ok fst hash eqb lsym t' b i (k, none) (k, v) W' Hi Hv eq_refl) as (W2 & P2).
      split; [right; eauto|].
      rewrite set_absent by (intros p Hp; apply (N p); apply (rep_in t l p R); assumption).
      rewrite P' in P2. assert (P3 : Permutation ((k, none) :: vals (upd t' i {| e_dist := dist t' i; e_val := Some (k, v) |})) ((k, none) :: (k, v) :: vals t)) by (rewrite P2; apply perm_swap).
      apply Permutation_cons_inv in P3. rewrite P3. rewrite P. apply Permutation_cons_append.
    + destruct EM as (-> & (b & W') & Hi & (k', v') & Hv & Hin & Q). cbn [fst] in Q.
      pose proof (geo_facts t b (proj1 W')). rewrite rdz_at by lia. cbn [bind]. rewrite Hv. rewrite wr_ok by lia. cbn [bind].
      split; [reflexivity|].
      fold (upd t i {| e_dist := dist t i; e_val := Some (k', v) |}).
      destruct (overwrite_ok fst hash eqb lsym t b i (k', v') (k', v) W' Hi Hv eq_refl) as (W2 & P2).
      split; [right; eauto|].
      apply (rep_in t l _ R) in Hin. destruct (set_present l k k' v v' KD Hin Q) as (l0 & P3 & P4).
      rewrite P4. rewrite P, P3 in P2. rewrite perm_swap in P2. apply Permutation_cons_inv in P2. exact P2.
    + rewrite LV in EM. exact EM.
  - (* emplace *)
    unfold dict_emplace. pose proof (emplace_wf fst hash eqb cap lsym lhash HC fuel HF t (k, v) W) as EM.
    destruct (emplace fst hash eqb cap fuel t (k, v)) as [(t', (i, [|]))|e| |]; try contradiction; cbn [bind fst snd].
    + destruct EM as (W' & P' & N & Hi & Hv).
      assert (AB : forall p, In p l -> eqb k (fst p) = false) by (intros p Hp; apply (N p); apply (rep_in t l p R); assumption).
      rewrite (get_none l k AB). cbn [fst snd]. split; [reflexivity|]. split; [right; exact W'|].
      rewrite set_absent by assumption. rewrite P', P. apply Permutation_cons_append.
    + destruct EM as (-> & (b & W') & Hi & (k', v') & Hv & Hin & Q). cbn [fst] in Q. apply (rep_in t l _ R) in Hin.
      rewrite (get_some l k k' v' KD Hin Q). cbn [fst snd]. split; [reflexivity|exact R].
    + rewrite LV in EM. exact EM.
  - (* get *)
    unfold dict_get. pose proof (find_rep t l k R) as F. destruct (find fst hash eqb t k) as [[i|]| | |]; try contradiction; cbn [bind missing].
    + destruct F as (b & k' & v & W' & Hi & Hv & HD & Hin & Q & G). rewrite HD. cbn [bind missing fst snd]. rewrite G. split; [reflexivity|exact R].
    + rewrite F. cbn [fst snd]. split; [reflexivity|exact R].
  - (* get with default *)
    unfold dict_get_default. pose proof (find_rep t l k R) as F. destruct (find fst hash eqb t k) as [[i|]| | |]; try contradiction; cbn [bind].
    + destruct F as (b & k' & v & W' & Hi & Hv & HD & Hin & Q & G). rewrite HD. cbn [bind fst snd]. rewrite G. split; [reflexivity|exact R].
    + rewrite F. cbn [fst snd]. split; [reflexivity|exact R].
  - (* contains *)
    unfold dict_contains. pose proof (find_rep t l k R) as F. destruct (find fst hash eqb t k) as [[i|]| | |]; try contradiction; cbn [bind].
    + destruct F as (b & k' & v & W' & Hi & Hv & HD & Hin & Q & G). cbn [fst snd]. rewrite G. split; [reflexivity|exact R].
    + cbn [fst snd]. rewrite F. split; [reflexivity|exact R].
  - (* pop *)
    unfold dict_pop. pose proof (find_rep t l k R) as F. destruct (find fst hash eqb t k) as [[i|]| | |]; try contradiction; cbn [bind].
    + destruct F as (b & k' & v & W' & Hi & Hv & HD & Hin & Q & G). rewrite HD. cbn [bind fst snd]. rewrite G.
      destruct (erase_ok fst hash eqb lsym t b i (k', v) W' Hi Hv) as (t' & E' & W2 & P2). rewrite E'. cbn [bind fst snd].
      split; [reflexivity|]. split; [right; eauto|]. rewrite P in P2.
      pose proof (kd_filter fst hash eqb LAW l (k', v) k KD Hin Q) as PF. unfold ref_del.
      pose proof (Permutation_trans P2 (Permutation_sym PF)) as PP. apply Permutation_cons_inv in PP. exact PP.
    + rewrite F. destruct d as [v|]; cbn [fst snd]; (split; [reflexivity|exact R]).
  - (* clear *)
    cbn [fst snd]. split; [reflexivity|]. destruct (clear_ok fst hash eqb t W) as (W' & V'). split; [exact W'|]. unfold dict_clear. rewrite V'. constructor.
  - (* len *)
    cbn [fst snd]. split; [|exact R]. unfold dict_size. rewrite LN. reflexivity.
  - (* items *)
    rewrite (items_w t W). cbn [bind fst snd]. split; [exact P|exact R].
  - (* reserve *)
    unfold dict_reserve. destruct (Z.gtb_spec n 0) as [L|L]; cbn [bind fst snd].
    + cbn [reserve_fits] in RF. pose proof (to_double_le n RF).
      pose proof (reserve_ok fst hash eqb cap lsym lhash HC fuel HF t n W L ltac:(unfold two64; lia)) as RS.
      destruct (reserve fst hash eqb cap fuel t n) as [t'|e| |]; try contradiction; cbn [bind].
      * destruct RS as (W' & P'). split; [reflexivity|]. split; [exact W'|]. rewrite P'. exact P.
      * rewrite LV in RS. exact RS.
    + split; [reflexivity|exact R].
Qed.

Lemma ref_step_len (l : list (K * V)) o : Z.of_nat (length (snd (ref_step eqb l o))) <=
  Z.of_nat (length l) + match o with DSet _ _ | DEmplace _ _ => 1 | _ => 0 end.
Proof.
  destruct o as [k v|k v|k|k d|k|k d| | | |n]; cbn [ref_step snd]; try lia.
  - pose proof (set_length l k v). lia.
  - destruct (ref_get eqb l k); cbn [snd]; [lia|]. pose proof (set_length l k v). lia.
  - destruct (ref_get eqb l k); [|destruct d; cbn [snd]; lia]. cbn [snd]. unfold ref_del.
    assert (forall f, (length (filter f l) <= length l)%nat) as FL.
    { intros f. induction l as [|p l IH]; cbn; [lia|]. destruct (f p); cbn; lia. }
    specialize (FL (fun p => negb (eqb k (fst p)))). lia.
  - cbn. lia.
Qed.

Lemma dict_run_ok ops : forall t l, rep t l -> Forall reserve_fits ops ->
  match dict_run eqb hash cap fuel none t ops with
  | Ok outs => Forall2 same_out outs (ref_run eqb l ops)
  | Exn e => e = bad_alloc
  | _ => False
  end.
Proof.
  induction ops as [|o ops IH]; intros t l R RF; cbn [dict_run ref_run]; [constructor|].
  inversion RF as [|? ? RF1 RF2]; subst. pose proof (dict_step_ok t l o R RF1) as S.
  destruct (dict_step eqb hash cap fuel none t o) as [(out, t')|e| |]; try contradiction; cbn [bind]; [|apply S].
  destruct S as (S1 & S2). specialize (IH t' _ S2 RF2). destruct (ref_step eqb l o) as (out', l'). cbn [fst snd] in *.
  destruct (dict_run eqb hash cap fuel none t' ops) as [outs|e| |]; try contradiction; cbn [bind]; [|exact IH].
  constructor; assumption.
Qed.
Lemma inserts_cons (o : dict_op K V) ops : inserts (o :: ops) = match o with DSet _ _ | DEmplace _ _ => 1 | _ => 0 end + inserts ops.
Proof. unfold inserts. destruct o; cbn [filter length]; lia. Qed.
Lemma dict_run_enough ops : forall t l, rep t l ->
  2 ^ (Z.of_nat (length l) + inserts ops + 3) <= cap -> Forall (reserve_below cap) ops ->
  exists outs, dict_run eqb hash cap fuel none t ops = Ok outs.
Proof.
  pose proof HC as HC'.
  induction ops as [|o ops IH]; intros t l R HB RB; cbn [dict_run]; [eauto|].
  inversion RB as [|? ? RB1 RB2]; subst.
  assert (RF1 : reserve_fits o) by (clear - RB1 HC'; destruct o; try exact I; unfold reserve_below in RB1; unfold reserve_fits; lia).
  pose proof (dict_step_ok t l o R RF1) as S. rewrite inserts_cons in HB. pose proof (ref_step_len l o) as SL.
  assert (I0 : 0 <= inserts ops) by (unfold inserts; lia).
  destruct (dict_step eqb hash cap fuel none t o) as [(out, t')|e| |]; try contradiction; cbn [bind].
  - destruct S as (S1 & S2).
    destruct (IH t' _ S2) as (outs & H); [|assumption|].
    + etransitivity; [|exact HB]. apply pow_le. clear - SL I0. destruct o; lia.
    + rewrite H. cbn [bind]. eauto.
  - exfalso. destruct S as (_ & S).
    assert (M : 2 ^ (Z.of_nat (length l) + 3) <= cap) by (etransitivity; [|exact HB]; apply pow_le; clear - I0; destruct o; lia).
    destruct o; try lia. cbn [reserve_below] in RB1. rewrite to_double_small in S by lia. lia.
Qed.

Lemma rep_empty : rep tempty [].
Proof. split; [left; reflexivity|constructor]. Qed.

(** *** Construction and equality *)
Lemma first_wins_aux xs : forall l, kd l -> forall k,
  ref_get eqb (fold_left (ins fst eqb) xs l) k =
  match ref_get eqb l k with Some v => Some v | None => ref_get eqb xs k end.
Proof.
  induction xs as [|(k1, v1) xs IH]; intros l KD k; cbn [fold_left ref_get].
  - destruct (ref_get eqb l k); reflexivity.
  - assert (KD' : kd (ins fst eqb l (k1, v1))).
    { unfold ins. destruct (existsb _ l) eqn:X; [assumption|]. constructor; [|assumption]. intros y Hy.
      destruct (eqb (fst (k1, v1)) (fst y)) eqn:Q; [|reflexivity]. rewrite <- X. symmetry. apply existsb_exists. eauto. }
    rewrite IH by exact KD'. unfold ins. cbn [fst]. destruct (existsb (fun y => eqb k1 (fst y)) l) eqn:X.
    + destruct (ref_get eqb l k) eqn:G; [reflexivity|]. destruct (eqb k k1) eqn:Q; [|reflexivity]. exfalso.
      apply existsb_exists in X. destruct X as (y & Hy & Qy). pose proof (get_absent l k G y Hy) as F.
      rewrite (law_trans _ _ LAW _ _ _ Q Qy) in F. discriminate F.
    + cbn [ref_get]. destruct (eqb k k1) eqn:Q; [|reflexivity].
      destruct (ref_get eqb l k) eqn:G; [|reflexivity]. exfalso. destruct (get_in l k v G) as (k' & I & Q').
      assert (eqb k1 k' = true) by (apply (law_trans _ _ LAW _ k); [rewrite lsym; assumption|assumption]).
      assert (existsb (fun y => eqb k1 (fst y)) l = true) by (apply existsb_exists; exists (k', v); auto). congruence.
Qed.
Lemma get_perm l l' k : kd l -> Permutation l l' -> ref_get eqb l k = ref_get eqb l' k.
Proof.
  intros KD P. destruct (ref_get eqb l k) eqn:G.
  - destruct (get_in l k v G) as (k' & I & Q). symmetry. apply (get_some l' k k'); [apply (kdistinct_perm fst eqb lsym l); assumption|apply (Permutation_in _ P I)|assumption].
  - symmetry. apply get_none. intros p Hp. apply (get_absent l k G). apply (Permutation_in _ (Permutation_sym P) Hp).
Qed.

Lemma insert_all_get t xs : wf t -> vals t = [] ->
  match insert_all fst hash eqb cap fuel t xs with
  | Ok t' => wf t' /\ forall k, ref_get eqb (vals t') k = ref_get eqb xs k
  | Exn e => e = bad_alloc
  | _ => False
  end.
Proof.
  intros W V0. pose proof (insert_all_ok fst hash eqb cap lsym lhash HC fuel HF xs t W) as I.
  destruct (insert_all fst hash eqb cap fuel t xs) as [t'|e| |]; try contradiction; [|apply I].
  destruct I as (W' & P). split; [exact W'|]. intros k. rewrite (get_perm _ _ k (wf_kd fst hash eqb t' W') P).
  rewrite V0. apply (first_wins_aux xs []). constructor.
Qed.
Lemma reserve_empty n : n < 2 ^ 53 ->
  match dict_reserve (V := V) hash eqb cap fuel tempty n with
  | Ok t' => wf t' /\ vals t' = []
  | Exn e => e = bad_alloc
  | _ => False
  end.
Proof.
  intros Hn. unfold dict_reserve. destruct (Z.gtb_spec n 0) as [L|L]; [|split; [left; reflexivity|reflexivity]].
  pose proof (reserve_ok (E := K * V) fst hash eqb cap lsym lhash HC fuel HF tempty n (or_introl eq_refl) L) as R.
  rewrite to_double_small in R by assumption. specialize (R ltac:(unfold two64; lia)).
  destruct (reserve fst hash eqb cap fuel tempty n) as [t'|e| |]; try contradiction; [|apply R].
  destruct R as (W & P). split; [exact W|]. apply Permutation_nil. symmetry. exact P.
Qed.

(** dict equality *)
Lemma eq_loop_ok veq l t l2 : rep t l2 ->
  match dict_eq_loop hash eqb veq l t with
  | Ok b => b = true <-> forall k v, In (k, v) l -> match ref_get eqb l2 k with Some v' => veq v v' = true | None => False end
  | _ => False
  end.
Proof.
  intros R. induction l as [|(k, v) l IH]; cbn [dict_eq_loop].
  - split; [intros _ k v []|reflexivity].
  - pose proof (find_rep t l2 k R) as F. destruct (find fst hash eqb t k) as [[i|]| | |]; try contradiction; cbn [bind].
    + destruct F as (b & k' & v' & W' & Hi & Hv & HD & Hin & Q & G). rewrite HD. cbn [bind snd].
      destruct (veq v v') eqn:VQ.
      * destruct (dict_eq_loop hash eqb veq l t) as [r| | |]; try contradiction. rewrite IH. split.
        -- intros H k0 v0 [H0|H0]; [injection H0 as <- <-; rewrite G; assumption|apply H; assumption].
        -- intros H k0 v0 H0. apply H. right. assumption.
      * split; [discriminate|]. intros H. specialize (H k v (or_introl eq_refl)). rewrite G in H. congruence.
    + split; [discriminate|]. intros H. specialize (H k v (or_introl eq_refl)). rewrite F in H. destruct H.
Qed.
(** Pairwise different keys of one list, all found in another of the same length: the
    other has no further keys. *)
Lemma pigeon : forall l1 l2 : list (K * V), kd l1 -> kd l2 -> length l1 = length l2 ->
  (forall p, In p l1 -> exists q, In q l2 /\ eqb (fst p) (fst q) = true) ->
  forall q, In q l2 -> exists p, In p l1 /\ eqb (fst p) (fst q) = true.
Proof.
  induction l1 as [|p l1 IH]; intros l2 K1 K2 LL H q Hq.
  - destruct l2; [destruct Hq|discriminate LL].
  - inversion K1 as [|? ? N1 K1']; subst.
    destruct (H p (or_introl eq_refl)) as (q0 & I0 & Q0).
    destruct (in_split _ _ I0) as (a & c & EQ).
    assert (P : Permutation l2 (q0 :: a ++ c)) by (rewrite EQ; symmetry; apply Permutation_middle).
    assert (K2' := kdistinct_perm fst eqb lsym _ _ P K2). inversion K2' as [|? ? N2 K2'']; subst x l.
    apply (Permutation_in _ P) in Hq. destruct Hq as [<-|Hq]; [exists p; split; [left; reflexivity|assumption]|].
    apply Permutation_length in P. cbn [length] in *.
    destruct (IH (a ++ c) K1' K2'' ltac:(lia)) with (q := q) as (p' & I' & Q'); [|assumption|exists p'; split; [right; assumption|assumption]].
    intros p' Hp'. destruct (H p' (or_intror Hp')) as (q' & Iq & Qq). exists q'. split; [|assumption].
    assert (Iq' : In q' (q0 :: a ++ c)) by (rewrite EQ in Iq; apply in_app_or in Iq; destruct Iq as [Iq|[Iq|Iq]]; [right; apply in_or_app; left; assumption|left; assumption|right; apply in_or_app; right; assumption]).
    destruct Iq' as [->|Iq']; [|assumption]. exfalso.
    specialize (N1 p' Hp'). rewrite (law_trans _ _ LAW _ (fst q') _ Q0) in N1; [discriminate N1|]. rewrite lsym. assumption.
Qed.
Lemma dict_eq_ok veq t1 t2 : wf t1 -> wf t2 ->
  exists b, dict_eq hash eqb veq t1 t2 = Ok b /\ (b = true <-> ref_eq eqb veq (vals t1) (vals t2)).
Proof.
  intros W1 W2. pose proof (wf_kd fst hash eqb t1 W1) as K1. pose proof (wf_kd fst hash eqb t2 W2) as K2.
  pose proof (wf_num fst hash eqb t1 W1) as N1. pose proof (wf_num fst hash eqb t2 W2) as N2. unfold len in *.
  assert (SUB : forall l1 l2 : list (K * V), kd l1 -> kd l2 ->
     (forall k, match ref_get eqb l1 k, ref_get eqb l2 k with Some _, None => False | _, _ => True end) -> (length l1 <= length l2)%nat).
  { clear - LAW. induction l1 as [|p l1 IH]; intros l2 K1 K2 H; [cbn; lia|]. inversion K1 as [|? ? N1 K1']; subst.
    destruct p as (k, v). pose proof (H k) as Hk. cbn [ref_get] in Hk. rewrite (law_refl _ _ LAW) in Hk.
    destruct (ref_get eqb l2 k) as [v'|] eqn:G; [|contradiction]. destruct (get_in l2 k v' G) as (k' & I & Q).
    destruct (in_split _ _ I) as (a & c & EQ).
    assert (P : Permutation l2 ((k', v') :: a ++ c)) by (rewrite EQ; symmetry; apply Permutation_middle).
    assert (K2' := kdistinct_perm fst eqb lsym _ _ P K2). inversion K2' as [|? ? N2 K2'']; subst x l.
    rewrite (Permutation_length P). cbn [length]. apply le_n_S. apply IH; [assumption|assumption|].
    intros k0. specialize (H k0). destruct (ref_get eqb l1 k0) as [v0|] eqn:G1; [|exact Logic.I].
    destruct (get_in l1 k0 v0 G1) as (k1 & I1 & Q1).
    assert (NE : eqb k0 k = false).
    { destruct (eqb k0 k) eqn:E0; [|reflexivity]. specialize (N1 (k1, v0) I1). cbn [fst] in N1.
      rewrite (law_trans _ _ LAW k k0 k1) in N1; [discriminate N1|rewrite lsym; assumption|assumption]. }
    cbn [ref_get] in H. rewrite NE, G1 in H. rewrite (get_perm l2 _ k0 K2 P) in H. cbn [ref_get] in H.
    destruct (eqb k0 k') eqn:E0; [|exact H]. exfalso.
    rewrite (law_trans _ _ LAW k0 k' k E0) in NE; [discriminate NE|]. rewrite lsym. assumption. }
  unfold dict_eq. destruct (Z.eqb_spec (num t1) (num t2)) as [Q|Q]; cbn [negb].
  - destruct (Z.eqb_spec (num t1) 0) as [Z0|Z0].
    + exists true. split; [reflexivity|]. split; [|reflexivity]. intros _ k.
      assert (vals t1 = []) as -> by (destruct (vals t1); [reflexivity|cbn [length] in N1; lia]).
      assert (vals t2 = []) as -> by (destruct (vals t2); [reflexivity|cbn [length] in N2; lia]). exact I.
    + rewrite (items_w t1 W1). cbn [bind].
      pose proof (eq_loop_ok veq (vals t1) t2 (vals t2) (conj W2 (Permutation_refl _))) as L.
      destruct (dict_eq_loop hash eqb veq (vals t1) t2) as [b| | |]; try contradiction. exists b. split; [reflexivity|]. rewrite L.
      split.
      * intros H k. destruct (ref_get eqb (vals t1) k) as [v|] eqn:G.
        -- destruct (get_in _ _ _ G) as (k' & I & Qk). specialize (H k' v I).
           assert (ref_get eqb (vals t2) k' = ref_get eqb (vals t2) k) as <-; [|exact H].
           destruct (ref_get eqb (vals t2) k') as [v'|] eqn:G'; [|contradiction]. destruct (get_in _ _ _ G') as (k'' & I' & Q'').
           symmetry. apply (get_some _ _ k''); [assumption|assumption|]. apply (law_trans _ _ LAW _ k'); assumption.
        -- destruct (ref_get eqb (vals t2) k) as [v'|] eqn:G'; [|exact I]. destruct (get_in _ _ _ G') as (k'' & I' & Q'').
           destruct (pigeon (vals t1) (vals t2) K1 K2 ltac:(lia)) with (q := (k'', v')) as ((k3, v3) & I3 & Q3); [|assumption|].
           ++ intros (k3, v3) I3. specialize (H k3 v3 I3). destruct (ref_get eqb (vals t2) k3) as [v4|] eqn:G4; [|contradiction].
              destruct (get_in _ _ _ G4) as (k4 & I4 & Q4). exists (k4, v4). auto.
           ++ pose proof (get_absent _ _ G (k3, v3) I3) as F. cbn [fst] in *.
              rewrite (law_trans _ _ LAW k k'' k3 Q'') in F; [discriminate F|]. rewrite lsym. assumption.
      * intros H k v I. specialize (H k). rewrite (get_some _ k k v K1 I (law_refl _ _ LAW k)) in H.
        destruct (ref_get eqb (vals t2) k); [exact H|exact H].
  - exists false. split; [reflexivity|]. split; [discriminate|]. intros H. exfalso.
    assert (A : (length (vals t1) <= length (vals t2))%nat).
    { apply SUB; [assumption|assumption|]. intros k. specialize (H k). destruct (ref_get eqb (vals t1) k), (ref_get eqb (vals t2) k); auto. }
    assert (B : (length (vals t2) <= length (vals t1))%nat).
    { apply SUB; [assumption|assumption|]. intros k. specialize (H k). destruct (ref_get eqb (vals t1) k), (ref_get eqb (vals t2) k); auto. }
    lia.
Qed.
(** ** Construction *)
Lemma insert_all_wf t xs t' : wf t -> insert_all fst hash eqb cap fuel t xs = Ok t' -> wf t'.
Proof.
  intros W E. pose proof (insert_all_ok fst hash eqb cap lsym lhash HC fuel HF xs t W) as S. rewrite E in S. apply S.
Qed.
Lemma init_random_ok l : Z.of_nat (length l) < 2 ^ 53 ->
  match dict_init_random hash eqb cap fuel l with
  | Ok t => wf t /\ (forall k, ref_get eqb (vals t) k = ref_get eqb l k) /\ (kd l -> Permutation (vals t) l)
  | Exn e => e = bad_alloc
  | _ => False
  end.
Proof.
  intros HL. unfold dict_init_random. pose proof (reserve_empty (Z.of_nat (length l)) HL) as R.
  destruct (dict_reserve hash eqb cap fuel tempty (Z.of_nat (length l))) as [t|e| |]; try contradiction; cbn [bind]; [|exact R].
  destruct R as (W & VE). pose proof (insert_all_get t l W VE) as G.
  pose proof (insert_all_ok fst hash eqb cap lsym lhash HC fuel HF l t W) as S.
  destruct (insert_all fst hash eqb cap fuel t l) as [t'|e| |]; try contradiction; [|exact G].
  destruct G as (W' & G). split; [assumption|]. split; [exact G|]. intros KD. destruct S as (_ & P). rewrite VE in P.
  rewrite P. rewrite <- (app_nil_r l) at 2. apply ins_distinct; [apply lsym|]. rewrite app_nil_r. exact KD.
Qed.
Lemma init_list_ok l :
  match dict_init_list hash eqb cap fuel l with
  | Ok t => wf t /\ (forall k, ref_get eqb (vals t) k = ref_get eqb l k) /\ (kd l -> Permutation (vals t) l)
  | Exn e => e = bad_alloc
  | _ => False
  end.
Proof.
  unfold dict_init_list, of_range. assert (W : wf tempty) by (left; reflexivity).
  pose proof (insert_all_get tempty l W eq_refl) as G.
  pose proof (insert_all_ok fst hash eqb cap lsym lhash HC fuel HF l tempty W) as S.
  destruct (insert_all fst hash eqb cap fuel tempty l) as [t'|e| |]; try contradiction; [|exact G].
  destruct G as (W' & G). split; [assumption|]. split; [exact G|]. intros KD. destruct S as (_ & P). change (vals tempty) with (@nil (K * V)) in P.
  rewrite P. rewrite <- (app_nil_r l) at 2. apply ins_distinct; [apply lsym|]. rewrite app_nil_r. exact KD.
Qed.
Lemma init_forward_ok l :
  match dict_init_forward hash eqb cap fuel l with
  | Ok t => wf t /\ (forall k, ref_get eqb (vals t) k = ref_get eqb l k) /\ (kd l -> Permutation (vals t) l)
  | Exn e => e = bad_alloc
  | _ => False
  end.
Proof.
  unfold dict_init_forward. pose proof (reserve_empty 4 ltac:(lia)) as R.
  destruct (dict_reserve hash eqb cap fuel tempty 4) as [t|e| |]; try contradiction; cbn [bind]; [|exact R].
  destruct R as (W & VE). pose proof (insert_all_get t l W VE) as G.
  pose proof (insert_all_ok fst hash eqb cap lsym lhash HC fuel HF l t W) as S.
  destruct (insert_all fst hash eqb cap fuel t l) as [t'|e| |]; try contradiction; [|exact G].
  destruct G as (W' & G). split; [assumption|]. split; [exact G|]. intros KD. destruct S as (_ & P). rewrite VE in P.
  rewrite P. rewrite <- (app_nil_r l) at 2. apply ins_distinct; [apply lsym|]. rewrite app_nil_r. exact KD.
Qed.
Lemma make_ok t : wf t ->
  match dict_make hash eqb cap fuel t with
  | Ok t' => wf t' /\ Permutation (vals t') (vals t)
  | Exn e => e = bad_alloc /\ cap < 2 ^ (len (vals t) + 3)
  | _ => False
  end.
Proof.
  intros W. unfold dict_make. rewrite (items_w t W). cbn [bind]. assert (WE : wf tempty) by (left; reflexivity).
  pose proof (insert_all_ok fst hash eqb cap lsym lhash HC fuel HF (vals t) tempty WE) as S.
  destruct (insert_all fst hash eqb cap fuel tempty (vals t)) as [t'|e| |]; try contradiction; [|exact S].
  destruct S as (W' & P). split; [assumption|]. change (vals tempty) with (@nil (K * V)) in P.
  rewrite P. rewrite <- (app_nil_r (vals t)) at 2. apply ins_distinct; [apply lsym|]. rewrite app_nil_r. apply (wf_kd fst hash eqb t W).
Qed.
Lemma reachable_rep t : reachable_dict hash eqb cap fuel none t -> wf t.
Proof.
  induction 1 as [|t o out t' H IH RF ST|l t HL E|l t E|l t E|t t' H IH E]; [left; reflexivity|..].
  - pose proof (dict_step_ok t (vals t) o (conj IH (Permutation_refl _)) RF) as S. rewrite ST in S. apply S.
  - pose proof (init_random_ok l HL) as S. rewrite E in S. apply S.
  - pose proof (init_forward_ok l) as S. rewrite E in S. apply S.
  - pose proof (init_list_ok l) as S. rewrite E in S. apply S.
  - pose proof (make_ok t IH) as S. rewrite E in S. apply S.
Qed.
End DictProofs.
