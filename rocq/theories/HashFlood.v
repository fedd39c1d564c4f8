(** Keys that collide in every table, and lemmas for HashProps.v. *)
From Coq Require Import Permutation.
From Verif Require Import Base ListAux HashModel HashArith HashTable HashOps HashSpec HashProofs HashSetProofs.
Ltac Zify.zify_post_hook ::= Z.to_euclidean_division_equations.

Lemma kd_fop {E K} (kof : E -> K) eqb l : kdistinct kof eqb l -> ForallOrdPairs (fun p q => eqb (kof p) (kof q) = false) l.
Proof. induction 1; constructor; [apply Forall_forall; assumption|assumption]. Qed.
Lemma fop_kd {E K} (kof : E -> K) eqb l : ForallOrdPairs (fun p q => eqb (kof p) (kof q) = false) l -> kdistinct kof eqb l.
Proof. induction 1; constructor; [apply Forall_forall; assumption|assumption]. Qed.

Lemma int_lawful : lawful int_hash Z.eqb.
Proof.
  constructor.
  - apply Z.eqb_refl.
  - apply Z.eqb_sym.
  - intros a b c. rewrite !Z.eqb_eq. congruence.
  - intros a b. rewrite Z.eqb_eq. congruence.
Qed.

Lemma attack_wrap i : wrapu64 (attack i) = wrapu64 (i * 17428512612931826493).
Proof.
  unfold attack, wraps64, wrapu64. set (x := i * 17428512612931826493). clearbody x. unfold two63, two64 in *. lia.
Qed.
Lemma attack_product i : 0 <= i < 4096 -> wrapu64 (11400714819323198485 * int_hash (attack i)) = i.
Proof.
  intros Hi. unfold int_hash. rewrite attack_wrap.
  assert (E : wrapu64 (11400714819323198485 * wrapu64 (i * 17428512612931826493)) = i).
  { unfold wrapu64. rewrite Z.mul_mod_idemp_r by (unfold two64; lia).
    replace (11400714819323198485 * (i * 17428512612931826493)) with (i * (11400714819323198485 * 17428512612931826493)) by ring.
    rewrite <- Z.mul_mod_idemp_r by (unfold two64; lia).
    replace ((11400714819323198485 * 17428512612931826493) mod two64) with 1 by (vm_compute; reflexivity).
    rewrite Z.mul_1_r. apply Z.mod_small. unfold two64. lia. }
  cbv zeta. destruct (Z.eqb_spec (wrapu64 (i * 17428512612931826493)) (two64 - 1)) as [Q|Q]; [|exact E].
  exfalso. rewrite Q in E. vm_compute in E. lia.
Qed.
Lemma attack_inj i j : 0 <= i < 4096 -> 0 <= j < 4096 -> attack i = attack j -> i = j.
Proof. intros Hi Hj Q. rewrite <- (attack_product i Hi), <- (attack_product j Hj), Q. reflexivity. Qed.
Lemma attack_home t i : wf (fun x => x) int_hash Z.eqb t -> t <> tempty -> 0 <= i < 4096 -> home int_hash t (attack i) = 0.
Proof.
  intros [->|(b & G & _)] NE Hi; [contradiction|]. destruct G as (Gb & _ & GS & _).
  unfold home, index_for_hash. rewrite attack_product by assumption. rewrite Z.shiftr_div_pow2 by lia. rewrite GS.
  apply Z.div_small. assert (2 ^ 13 <= 2 ^ (64 - b)) by (apply Z.pow_le_mono_r; lia). lia.
Qed.

(** The set after a history *)
Section Final.
Context {K : Type}.
Variable hash : K -> Z.
Variable eqb : K -> K -> bool.
Variable cap : Z.
Variable fuel : nat.
Hypothesis LAW : lawful hash eqb.
Hypothesis MACH : machine cap fuel.
Lemma set_run_final ops : forall t l outs, srep hash eqb t l -> Forall sreserve_fits ops ->
  set_run eqb hash cap fuel t ops = Ok outs ->
  exists t', srep hash eqb t' (fold_left (fun l o => snd (sref_step eqb l o)) ops l).
Proof.
  induction ops as [|o ops IH]; intros t l outs R F E; cbn [fold_left]; [exists t; assumption|].
  inversion F as [|? ? F1 F2]; subst. pose proof (set_step_ok hash eqb cap fuel LAW MACH t l o R F1) as S.
  cbn [set_run] in E. destruct (set_step eqb hash cap fuel t o) as [(out, t')|e| |]; try discriminate E. cbn [bind] in E.
  destruct (set_run eqb hash cap fuel t' ops) as [outs'|e| |] eqn:E'; try discriminate E.
  destruct S as (_ & S). eapply IH; eassumption.
Qed.
Lemma adds_state (l : list K) : forall acc, ForallOrdPairs (fun x y => eqb x y = false) (acc ++ l) ->
  fold_left (fun l o => snd (sref_step eqb l o)) (map SAdd l) acc = acc ++ l.
Proof.
  induction l as [|x l IH]; intros acc H; cbn [map fold_left]; [rewrite app_nil_r; reflexivity|].
  replace (snd (sref_step eqb acc (SAdd x))) with (acc ++ [x]).
  - rewrite IH; rewrite <- app_assoc; [reflexivity|exact H].
  - cbn [sref_step snd]. destruct (member eqb x acc) eqn:M; [|reflexivity]. exfalso.
    apply (member_true eqb) in M. destruct M as (y & Hy & Q).
    clear IH. induction acc as [|z acc IH]; [destruct Hy|]. cbn [app] in H. inversion H as [|? ? H1 H2]; subst.
    destruct Hy as [->|Hy].
    + rewrite Forall_forall in H1. specialize (H1 x ltac:(apply in_or_app; right; left; reflexivity)).
      rewrite (law_sym _ _ LAW) in Q. congruence.
    + apply IH; assumption.
Qed.
End Final.

Lemma adds_done {K} (eqb : K -> K -> bool) {A} (f : A -> K) l : forall acc,
  sref_run eqb acc (map (fun i => SAdd (f i)) l) = repeat SDone (length l).
Proof. induction l as [|x l IH]; intros acc; [reflexivity|]. cbn [map sref_run sref_step length repeat]. f_equal. apply IH. Qed.

Lemma attack_fop n m : (n + m <= 4096)%nat ->
  ForallOrdPairs (fun x y => Z.eqb x y = false) (map (fun i => attack (Z.of_nat i)) (seq n m)).
Proof.
  revert n. induction m as [|m IH]; intros n H; cbn [seq map]; constructor; [|apply IH; lia].
  apply Forall_forall. intros y Hy. apply in_map_iff in Hy. destruct Hy as (j & <- & Hj). apply in_seq in Hj.
  apply Z.eqb_neq. intros Q. apply attack_inj in Q; lia.
Qed.
Lemma flood_run cap fuel n : machine cap fuel -> (52 <= n <= 4096)%nat ->
  set_run Z.eqb int_hash cap fuel tempty (map (fun i => SAdd (attack (Z.of_nat i))) (seq 0 n)) = Exn bad_alloc.
Proof.
  intros MACH Hn. set (ks := map (fun i => attack (Z.of_nat i)) (seq 0 n)).
  assert (EQ : map (fun i => SAdd (attack (Z.of_nat i))) (seq 0 n) = map SAdd ks) by (unfold ks; rewrite map_map; reflexivity).
  rewrite EQ.
  assert (R : srep int_hash Z.eqb tempty []) by (split; [left; reflexivity|constructor]).
  assert (F : Forall sreserve_fits (map SAdd ks)) by (apply Forall_forall; intros o Ho; apply in_map_iff in Ho; destruct Ho as (x & <- & _); exact I).
  pose proof (set_run_ok int_hash Z.eqb cap fuel int_lawful MACH _ tempty [] R F) as H.
  destruct (set_run Z.eqb int_hash cap fuel tempty (map SAdd ks)) as [outs|e| |] eqn:E; try contradiction; [|congruence].
  exfalso. destruct (set_run_final int_hash Z.eqb cap fuel int_lawful MACH _ tempty [] outs R F E) as (t & W & P).
  rewrite (adds_state int_hash Z.eqb int_lawful ks []) in P by (apply attack_fop; lia). cbn [app] in P.
  assert (LN : length (vals t) = n) by (rewrite (Permutation_length P); unfold ks; rewrite map_length, seq_length; reflexivity).
  destruct (flood (fun x => x) int_hash Z.eqb t 0 W) as (_ & B); [|lia|lia].
  intros x Hx. pose proof (Permutation_in _ P Hx) as Hx'. unfold ks in Hx'. apply in_map_iff in Hx'.
  destruct Hx' as (j & <- & Hj). apply in_seq in Hj. apply attack_home; [assumption| |lia]. intros ->. destruct Hx.
Qed.

Lemma to_double_top n : 2 ^ 63 - 512 <= n < 2 ^ 63 -> to_double n = 2 ^ 63.
Proof.
  intros H. unfold to_double. change (2 ^ 63) with 9223372036854775808 in *. change (2 ^ 53) with 9007199254740992.
  destruct (Z.ltb_spec n 9007199254740992); [lia|].
  assert (L : Z.log2 n = 62) by (apply Z.log2_unique; [lia|]; change (2 ^ 62) with 4611686018427387904; change (2 ^ Z.succ 62) with 9223372036854775808; lia).
  rewrite L. change (2 ^ (62 - 52)) with 1024. cbv zeta.
  assert (Q : n / 1024 = 9007199254740991) by (symmetry; apply Z.div_unique with (r := n - 1024 * 9007199254740991); lia).
  rewrite Q. assert (M : n mod 1024 = n - 1024 * 9007199254740991) by (rewrite Z.mod_eq, Q by lia; lia).
  rewrite M. destruct (Z.ltb_spec (2 * (n - 1024 * 9007199254740991)) 1024); [lia|]. cbn [orb].
  replace (Z.even 9007199254740991) with false by reflexivity. rewrite andb_false_r. reflexivity.
Qed.

Lemma insert_two {K V} (hash : K -> Z) eqb cap fuel : lawful hash eqb -> machine cap fuel -> forall k (v v' : V), 2 ^ 5 <= cap ->
  exists t, dict_init_list hash eqb cap fuel [(k, v); (k, v')] = Ok t /\ wf fst hash eqb t /\ Permutation (vals t) [(k, v)].
Proof.
  intros LAW MACH k v v' C. unfold dict_init_list, of_range.
  assert (W0 : wf (E := K * V) fst hash eqb tempty) by (left; reflexivity).
  destruct MACH as (HC & HF). assert (HF' : 52 <= Z.of_nat fuel) by lia.
  pose proof (insert_all_ok fst hash eqb cap (law_sym _ _ LAW) (law_hash _ _ LAW) HC fuel HF' [(k, v); (k, v')] tempty W0) as S.
  destruct (insert_all fst hash eqb cap fuel tempty [(k, v); (k, v')]) as [t|e| |]; try contradiction.
  - exists t. destruct S as (W & P). split; [reflexivity|]. split; [assumption|].
    rewrite P. change (vals tempty) with (@nil (K * V)). cbn [fold_left ins existsb fst].
    unfold ins at 1. cbn [ins existsb fst]. unfold ins. cbn [existsb fst]. rewrite (law_refl _ _ LAW). cbn [orb]. reflexivity.
  - exfalso. destruct S as (_ & S). unfold len in S. cbn in S. change (2 ^ 5) with 32 in C. cbn in C. lia.
Qed.

Lemma own_or {K} (eqb : K -> K -> bool) y l args :
  member eqb y l || existsb (arg_member eqb (fun _ => false) y) args =
  member eqb y l || existsb (arg_member eqb (fun y => member eqb y l) y) args.
Proof.
  induction args as [|a args IH]; [reflexivity|]. cbn [existsb]. destruct a as [l'|]; cbn [arg_member].
  - rewrite !orb_assoc, !(orb_comm (member eqb y l)), <- !orb_assoc, IH. reflexivity.
  - cbn [orb]. rewrite IH. destruct (member eqb y l); reflexivity.
Qed.
