(** Proofs about the comparison of dynamic values. *)
From Coq Require Import Floats.SpecFloat.
From Verif Require Import Base KeyModel KeyProofs FloatAux VcModel VcSpec.
Local Open Scope Z_scope.
Local Notation digits := Zdigits2.

Section ValInd.
Variable Q : val -> Prop.
Hypothesis Hnone : Q VNone.
Hypothesis Hint : forall n, Q (VInt n).
Hypothesis Hfloat : forall x, Q (VFloat x).
Hypothesis Hbytes : forall s, Q (VBytes s).
Hypothesis Hstr : forall s, Q (VStr s).
Hypothesis Hlist : forall l, Forall Q l -> Q (VList l).
Hypothesis Htuple : forall l, Forall Q l -> Q (VTuple l).
Fixpoint val_ind' (k : val) : Q k :=
  let go := fix go l : Forall Q l := match l with [] => Forall_nil Q | x :: l' => Forall_cons x (val_ind' x) (go l') end in
  match k with
  | VNone => Hnone | VInt n => Hint n | VFloat x => Hfloat x | VBytes s => Hbytes s | VStr s => Hstr s
  | VList l => Hlist l (go l)
  | VTuple l => Htuple l (go l)
  end.
End ValInd.

(** ** Strings *)
Lemma compare_lex s : forall t, view_compare s t = match lex s t with Lt => -1 | Eq => 0 | Gt => 1 end.
Proof.
  assert (G : forall t, compare_impl (Z.of_nat (length s)) (Z.of_nat (length t)) (traits_compare s t)
    = match lex s t with Lt => -1 | Eq => 0 | Gt => 1 end).
  { induction s as [|a s IH]; intros [|b t]; cbn [traits_compare lex]; try reflexivity.
    unfold compare_impl. cbn [Z.eqb length]. destruct (Z.compare_spec a b) as [E|E|E].
    - subst. rewrite Z.ltb_irrefl. rewrite <- IH. unfold compare_impl.
      rewrite !Nat2Z.inj_succ.
      replace (Z.succ (Z.of_nat (length t)) <? Z.succ (Z.of_nat (length s))) with (Z.of_nat (length t) <? Z.of_nat (length s))
        by (destruct (Z.ltb_spec (Z.of_nat (length t)) (Z.of_nat (length s))), (Z.ltb_spec (Z.succ (Z.of_nat (length t))) (Z.succ (Z.of_nat (length s)))); lia).
      replace (Z.succ (Z.of_nat (length s)) <? Z.succ (Z.of_nat (length t))) with (Z.of_nat (length s) <? Z.of_nat (length t))
        by (destruct (Z.ltb_spec (Z.of_nat (length s)) (Z.of_nat (length t))), (Z.ltb_spec (Z.succ (Z.of_nat (length s))) (Z.succ (Z.of_nat (length t)))); lia).
      reflexivity.
    - rewrite (proj2 (Z.ltb_lt a b) E). reflexivity.
    - rewrite (proj2 (Z.ltb_ge a b)), (proj2 (Z.ltb_lt b a) E) by lia. reflexivity. }
  intros t. unfold view_compare. rewrite <- G. destruct s as [|a s]; [destruct t; reflexivity|]. destruct t as [|b t]; reflexivity.
Qed.
Lemma lex_opp s : forall t, lex t s = CompOpp (lex s t).
Proof.
  induction s as [|a s IH]; intros [|b t]; cbn [lex]; try reflexivity.
  rewrite (Z.compare_antisym a b). destruct (a ?= b); cbn; [apply IH|reflexivity|reflexivity].
Qed.
Lemma lex_eq s : forall t, lex s t = Eq -> s = t.
Proof.
  induction s as [|a s IH]; intros [|b t]; cbn [lex]; try (reflexivity || discriminate).
  destruct (Z.compare_spec a b) as [->|E|E]; try discriminate. intros H. f_equal. apply IH, H.
Qed.
Lemma lex_refl s : lex s s = Eq.
Proof. induction s as [|a s IH]; cbn [lex]; [reflexivity|]. rewrite Z.compare_refl. exact IH. Qed.
Lemma lex_trans s : forall t u, lex s t = Lt -> lex t u = Lt -> lex s u = Lt.
Proof.
  induction s as [|a s IH]; intros [|b t] [|c u]; cbn [lex]; try (reflexivity || discriminate).
  destruct (Z.compare_spec a b) as [->|E|E]; try discriminate; destruct (Z.compare_spec b c) as [->|F|F]; try discriminate.
  - apply IH.
  - reflexivity.
  - intros _ _. rewrite (proj2 (Z.compare_lt_iff a c)) by lia. reflexivity.
  - intros _ _. rewrite (proj2 (Z.compare_lt_iff a c)) by lia. reflexivity.
Qed.

(** ** Numbers *)
Lemma pow_pos k : 0 <= k -> 0 < 2 ^ k. Proof. intros. apply Z.pow_pos_nonneg; lia. Qed.
Lemma cmp_mul a b p : 0 < p -> (a * p ?= b * p) = (a ?= b).
Proof. intros P. destruct (Z.compare_spec a b) as [->|E|E]; [apply Z.compare_refl|apply Z.compare_lt_iff; nia|apply Z.compare_gt_iff; nia]. Qed.
Lemma cmp_at d m e n f : d <= e -> d <= f -> num_cmp (Fin m e) (Fin n f) = Some (m * 2 ^ (e - d) ?= n * 2 ^ (f - d)).
Proof.
  intros E F. cbn [num_cmp]. f_equal. set (c := Z.min e f). assert (H : d <= c) by lia.
  replace (e - d) with (e - c + (c - d)) by lia. replace (f - d) with (f - c + (c - d)) by lia.
  rewrite !Z.pow_add_r, !Z.mul_assoc, cmp_mul by (try apply pow_pos; lia). reflexivity.
Qed.
Lemma cmp_opp a b : num_cmp b a = match num_cmp a b with Some c => Some (CompOpp c) | None => None end.
Proof.
  destruct a as [|s|m e], b as [|t|n f]; try reflexivity; try (destruct s; reflexivity); try (destruct t; reflexivity).
  - destruct s, t; reflexivity.
  - rewrite (cmp_at (Z.min e f)), (cmp_at (Z.min e f) m e) by lia. rewrite <- Z.compare_antisym. reflexivity.
Qed.
Definition numeral (x : num) : bool := match x with NaN => false | _ => true end.
Lemma cmp_total a b : numeral a = true -> numeral b = true -> exists c, num_cmp a b = Some c.
Proof. destruct a, b; try discriminate; intros; eexists; reflexivity. Qed.
Lemma cmp_eq_l a b c : num_cmp a b = Some Eq -> num_cmp a c = num_cmp b c.
Proof.
  destruct a as [|s|m e], b as [|t|n f]; try discriminate.
  - destruct s, t; try discriminate; reflexivity.
  - destruct s; discriminate.
  - destruct t; discriminate.
  - intros H. destruct c as [|u|k g]; try reflexivity. set (d := Z.min (Z.min e f) g).
    rewrite (cmp_at d) in * by lia. rewrite (cmp_at d n f) by lia. injection H as H. apply Z.compare_eq in H. rewrite H. reflexivity.
Qed.
Lemma cmp_trans a b c : num_cmp a b = Some Lt -> num_cmp b c = Some Lt -> num_cmp a c = Some Lt.
Proof.
  destruct a as [|s|m e], b as [|t|n f]; try discriminate; destruct c as [|u|k g]; try discriminate;
    try (destruct s); try (destruct t); try (destruct u); try discriminate; try reflexivity.
  set (d := Z.min (Z.min e f) g). rewrite !(cmp_at d) by lia. intros H K. injection H as H. injection K as K.
  f_equal. rewrite Z.compare_lt_iff in *. lia.
Qed.

Definition float_num (x : double) : num :=
  match x with S754_nan => NaN | S754_infinity s => Inf s | S754_zero _ => Fin 0 0
  | S754_finite s m e => Fin (if s then Zneg m else Zpos m) e end.
Lemma number_float x : number (VFloat x) = Some (float_num x). Proof. destruct x; reflexivity. Qed.

Lemma pos_cmp m1 e1 m2 e2 : bounded 53 1024 m1 e1 = true -> bounded 53 1024 m2 e2 = true ->
  (Zpos m1 * 2 ^ (e1 - Z.min e1 e2) ?= Zpos m2 * 2 ^ (e2 - Z.min e1 e2))
  = match e1 ?= e2 with Lt => Lt | Gt => Gt | Eq => Pos.compare m1 m2 end.
Proof.
  intros B1 B2. apply bounded_iff in B1, B2. destruct B1 as [B1 _], B2 as [B2 _].
  assert (L : forall m e n f, Z.max (digits (Zpos m) + e - 53) (-1074) = e -> Z.max (digits (Zpos n) + f - 53) (-1074) = f ->
    e < f -> Zpos m * 2 ^ (e - Z.min e f) < Zpos n * 2 ^ (f - Z.min e f)).
  { intros m e n f A B H. rewrite Z.min_l, Z.sub_diag by lia. change (2 ^ 0) with 1. rewrite Z.mul_1_r.
    pose proof (digits_bounds (Zpos m) ltac:(lia)) as Dm. pose proof (digits_bounds (Zpos n) ltac:(lia)) as Dn.
    replace (digits (Zpos n)) with 53 in Dn by lia.
    assert (2 ^ digits (Zpos m) <= 2 ^ 53) by (apply Z.pow_le_mono_r; lia).
    assert (2 ^ 1 <= 2 ^ (f - e)) by (apply Z.pow_le_mono_r; lia). change (2 ^ 1) with 2 in *. change (2 ^ 53) with (2 * 2 ^ 52) in *.
    change (53 - 1) with 52 in *. nia. }
  destruct (Z.compare_spec e1 e2) as [E|E|E].
  - subst. rewrite Z.min_id, Z.sub_diag. change (2 ^ 0) with 1. rewrite !Z.mul_1_r. reflexivity.
  - apply Z.compare_lt_iff. apply L; assumption.
  - apply Z.compare_gt_iff. rewrite Z.min_comm. apply L; assumption.
Qed.
Lemma sf_cmp x y : valid x -> valid y -> SFcompare x y = num_cmp (float_num x) (float_num y).
Proof.
  intros Vx Vy. destruct x as [s|s| |s m e], y as [t|t| |t n f]; try reflexivity;
    try (destruct s; reflexivity); try (destruct t; reflexivity).
  - cbn [SFcompare float_num num_cmp]. set (d := Z.min 0 f). assert (P := pow_pos (f - d) ltac:(lia)).
    destruct t; rewrite Z.mul_0_l; f_equal; symmetry; [apply Z.compare_gt_iff|apply Z.compare_lt_iff]; nia.
  - destruct s, t; reflexivity.
  - cbn [SFcompare float_num num_cmp]. set (d := Z.min e 0). assert (P := pow_pos (e - d) ltac:(lia)).
    destruct s; rewrite Z.mul_0_l; f_equal; symmetry; [apply Z.compare_lt_iff|apply Z.compare_gt_iff]; nia.
  - cbn [SFcompare float_num num_cmp]. pose proof (pos_cmp m e n f Vx Vy) as H.
    set (d := Z.min e f) in *. assert (P := pow_pos (e - d) ltac:(lia)). assert (P' := pow_pos (f - d) ltac:(lia)).
    change (Pos.compare_cont Eq m n) with (Pos.compare m n).
    destruct s, t; f_equal.
    + change (Zneg m) with (- Zpos m). change (Zneg n) with (- Zpos n). rewrite !Z.mul_opp_l, Z.compare_opp, (Z.compare_antisym (Zpos m * 2 ^ (e - d))), H.
      destruct (e ?= f); reflexivity.
    + symmetry. apply Z.compare_lt_iff. nia.
    + symmetry. apply Z.compare_gt_iff. nia.
    + symmetry. exact H.
Qed.

Lemma of_int_exact n : Z.abs n <= 2 ^ 53 -> valid (of_int n) /\ forall c, num_cmp (float_num (of_int n)) c = num_cmp (Fin n 0) c.
Proof.
  intros H.
  assert (G : forall s p, Zpos p <= 2 ^ 53 -> exists k j, binary_round 53 1024 s p 0 = S754_finite s k j /\ bounded 53 1024 k j = true /\
    j <= 1 /\ Zpos k * 2 ^ (j - Z.min j 0) = Zpos p * 2 ^ (0 - Z.min j 0)).
  { intros s p L. assert (D := digits_bounds (Zpos p) ltac:(lia)). assert (D0 := digits_nonneg (Zpos p) ltac:(lia)).
    assert (Hd : 0 < digits (Zpos p)) by (cbn; lia).
    destruct (Z.eq_dec (Zpos p) (2 ^ 53)) as [E|N].
    - exists (2 ^ 52)%positive, 1. assert (p = (2 ^ 53)%positive) as -> by (injection E as ->; reflexivity).
      split; [apply round_fits; reflexivity|]. repeat split; try reflexivity.
    - assert (DL : digits (Zpos p) <= 53) by (apply digits_le; lia).
      set (d := digits (Zpos p)) in *. assert (P := pow_pos (53 - d) ltac:(lia)).
      destruct (Zpos p * 2 ^ (53 - d)) as [|k|k] eqn:K; try lia.
      exists k, (d - 53).
      assert (Kd : digits (Zpos k) = 53).
      { rewrite <- K, digits_mul2 by lia. fold d. lia. }
      assert (B : bounded 53 1024 k (d - 53) = true) by (apply bounded_iff; rewrite Kd; lia).
      assert (V : Zpos k * 2 ^ (d - 53 - Z.min (d - 53) 0) = Zpos p * 2 ^ (0 - Z.min (d - 53) 0)).
      { rewrite Z.min_l, Z.sub_diag by lia. rewrite <- K. replace (0 - (d - 53)) with (53 - d) by lia. change (2 ^ 0) with 1. lia. }
      split; [|repeat split; [exact B|lia|exact V]]. apply round_fits; [exact B|]. rewrite (Z.min_comm 0). symmetry. exact V. }
  assert (W : forall m j n', j <= 1 -> m * 2 ^ (j - Z.min j 0) = n' * 2 ^ (0 - Z.min j 0) ->
     forall c, num_cmp (Fin m j) c = num_cmp (Fin n' 0) c).
  { intros m j n' _ E [|u|k g]; try reflexivity. apply cmp_eq_l. cbn [num_cmp]. rewrite E, Z.compare_refl. reflexivity. }
  unfold of_int, binary_normalize. destruct n as [|p|p].
  - split; [reflexivity|]. reflexivity.
  - destruct (G false p ltac:(lia)) as (k & j & -> & B & L & V). split; [exact B|]. apply W; assumption.
  - destruct (G true p ltac:(lia)) as (k & j & -> & B & L & V). split; [exact B|]. apply W; [assumption|]. 
    change (Zneg k) with (- Zpos k). change (Zneg p) with (- Zpos p). rewrite !Z.mul_opp_l, V. reflexivity.
Qed.

(** ** Three-way comparison *)
Fixpoint c3 (a b : val) {struct a} : option comparison :=
  let items := fix items (l r : list val) : option comparison :=
    match l, r with
    | [], [] => Some Eq
    | [], _ => Some Lt
    | _, [] => Some Gt
    | x :: l, y :: r => match c3 x y with Some Eq => items l r | c => c end
    end in
  match a, b with
  | VBytes s, VBytes t | VStr s, VStr t => Some (lex s t)
  | VList l, VList r | VTuple l, VTuple r => items l r
  | _, _ => match number a, number b with Some x, Some y => num_cmp x y | _, _ => None end
  end.
Fixpoint items3 (l r : list val) : option comparison :=
  match l, r with
  | [], [] => Some Eq
  | [], _ => Some Lt
  | _, [] => Some Gt
  | x :: l, y :: r => match c3 x y with Some Eq => items3 l r | c => c end
  end.
Lemma c3_list l r : c3 (VList l) (VList r) = items3 l r.
Proof. reflexivity. Qed.
Lemma c3_tuple l r : c3 (VTuple l) (VTuple r) = items3 l r.
Proof. reflexivity. Qed.

Definition opp3 (c : option comparison) : option comparison := match c with Some c => Some (CompOpp c) | None => None end.
Lemma items3_opp l : Forall (fun x => forall y, c3 y x = opp3 (c3 x y)) l -> forall r, items3 r l = opp3 (items3 l r).
Proof.
  induction 1 as [|x l Hx Hl IH]; intros [|y r]; try reflexivity. cbn [items3]. rewrite Hx.
  destruct (c3 x y) as [[]|]; cbn [opp3 CompOpp]; try reflexivity. apply IH.
Qed.
Lemma c3_opp a : forall b, c3 b a = opp3 (c3 a b).
Proof.
  induction a as [|n|x|s|s|l IH|l IH] using val_ind'; intros b.
  1: destruct b as [| | [] | | | |]; reflexivity.
  1,2: destruct b; cbn [c3]; rewrite ?number_float; try reflexivity; try (destruct x; reflexivity); apply cmp_opp.
  1,2: destruct b as [| | [] | | | |]; try reflexivity; cbn [c3 opp3]; rewrite lex_opp; reflexivity.
  1: destruct b as [| | [] | | | |]; try reflexivity. 2: destruct b as [| | [] | | | |]; try reflexivity.
  - rewrite !c3_list. apply items3_opp, IH.
  - rewrite !c3_tuple. apply items3_opp, IH.
Qed.

(** Python's comparisons from it, when there is no NaN *)
Fixpoint no_nan (v : val) : bool :=
  match v with
  | VFloat S754_nan => false
  | VList l | VTuple l => forallb no_nan l
  | _ => true
  end.
Fixpoint no_none (v : val) : bool :=
  match v with
  | VNone => false
  | VList l | VTuple l => forallb no_none l
  | _ => true
  end.
Definition is_eq (c : option comparison) : bool := match c with Some Eq => true | _ => false end.
Lemma py_eq_c3 a : no_none a = true -> forall b, py_eq a b = is_eq (c3 a b).
Proof.
  induction a as [|n|x|s|s|l IH|l IH] using val_ind'; intros NN b; [discriminate|..].
  1,2: destruct b; cbn [py_eq c3]; rewrite ?number_float; try reflexivity; destruct x; reflexivity.
  1,2: destruct b; try reflexivity; cbn [py_eq c3 is_eq]; destruct (lex _ _); reflexivity.
  1: destruct b as [| | | | |r|r]; try reflexivity; rewrite c3_list. 2: destruct b as [| | | | |r|r]; try reflexivity; rewrite c3_tuple.
  all: cbn [py_eq]; cbn [no_none] in NN; revert r; induction IH as [|x l Hx Hl IHl]; intros [|y r]; try reflexivity;
    cbn [items3 forallb] in *; apply andb_true_iff in NN; destruct NN as (N1 & N2); rewrite (Hx N1), (IHl N2);
    destruct (c3 x y) as [[]|]; reflexivity.
Qed.
Lemma py_cmp_c3 o a : no_none a = true -> no_nan a = true -> forall b, no_nan b = true -> py_cmp o a b = option_map (holds o) (c3 a b).
Proof.
  induction a as [|n|x|s|s|l IH|l IH] using val_ind'; intros NN Na b Nb; [discriminate|..].
  1,2: destruct b as [| |y| | | |]; cbn [py_cmp c3 number]; rewrite ?number_float; try reflexivity;
    try (destruct x; reflexivity).
  1: destruct y; try discriminate; reflexivity.
  1: destruct x; try discriminate; reflexivity.
  1: destruct x, y; try discriminate; reflexivity.
  1,2: destruct b; reflexivity.
  1: destruct b as [| | | | |r|r]; try reflexivity; rewrite c3_list. 2: destruct b as [| | | | |r|r]; try reflexivity; rewrite c3_tuple.
  all: cbn [py_cmp]; cbn [no_none no_nan] in NN, Na, Nb; revert r Nb; induction IH as [|x l Hx Hl IHl]; intros [|y r] Nb; try reflexivity;
    cbn [items3 forallb] in *; apply andb_true_iff in NN, Na, Nb; destruct NN as (N1 & N2), Na as (A1 & A2), Nb as (B1 & B2);
    rewrite (py_eq_c3 x N1), (Hx N1 A1 y B1), (IHl N2 A2 r B2);
    destruct (c3 x y) as [[]|]; reflexivity.
Qed.

(** ** The operators *)
Definition good (f : bool) (v : val) : bool := tame v && (if f then floatless v else small_ints v).
Lemma good_items f l : good f (VList l) = true -> forallb (good f) l = true.
Proof.
  unfold good. cbn [tame floatless small_ints]. intros H. apply andb_true_iff in H. destruct H as (A & B).
  rewrite forallb_forall in *. intros x X. rewrite (A x X). cbn [andb]. destruct f; rewrite forallb_forall in B; exact (B x X).
Qed.
Lemma good_tame f v : good f v = true -> tame v = true. Proof. intros H. apply andb_true_iff in H. apply H. Qed.
Lemma tame_nan v : tame v = true -> no_nan v = true.
Proof.
  induction v as [|n|x|s|s|l IH|l IH] using val_ind'; cbn [tame no_nan]; try (reflexivity || discriminate).
  - destruct x; easy.
  - intros H. rewrite forallb_forall in *. rewrite Forall_forall in IH. intros x X. apply IH; auto.
Qed.
Lemma tame_none v : tame v = true -> no_none v = true.
Proof.
  induction v as [|n|x|s|s|l IH|l IH] using val_ind'; cbn [tame no_none]; try (reflexivity || discriminate).
  intros H. rewrite forallb_forall in *. rewrite Forall_forall in IH. intros x X. apply IH; auto.
Qed.
Lemma tame_valid x : tame (VFloat x) = true -> valid x. Proof. destruct x; easy. Qed.
Lemma ltb_num x y : valid x -> valid y -> SFltb y x = match num_cmp (float_num x) (float_num y) with Some Gt => true | _ => false end.
Proof. intros Vx Vy. unfold SFltb. rewrite sf_cmp, cmp_opp by assumption. destruct (num_cmp _ _) as [[]|]; reflexivity. Qed.

Definition ask (o : op) (c : option comparison) : res bool := match c with Some c => Ok (holds o c) | None => Exn TypeError end.
Definition asked {A} (f : A -> bool) (c : option A) : res bool := match c with Some c => Ok (f c) | None => Exn TypeError end.

Lemma num_gt f a b : good f a = true -> good f b = true ->
  match a with VInt n => gt_int n b = ask Gt_ (c3 a b) | VFloat x => gt_float x b = ask Gt_ (c3 a b) | _ => True end.
Proof.
  intros Ga Gb. unfold good in *. apply andb_true_iff in Ga, Gb. destruct Ga as (Ta & Fa), Gb as (Tb & Fb).
  assert (I : forall n y, small_ints (VInt n) = true -> num_cmp (Fin n 0) y = num_cmp (float_num (of_int n)) y).
  { intros n y H. cbn in H. symmetry. apply of_int_exact. lia. }
  assert (V : forall n, small_ints (VInt n) = true -> valid (of_int n)).
  { intros n H. cbn in H. apply of_int_exact. lia. }
  destruct a as [|n|x| | | |]; try exact Logic.I; destruct b as [|m|y| | | |]; try reflexivity; cbn [gt_int gt_float c3]; rewrite ?number_float; try reflexivity.
  - cbn [number]. rewrite (cmp_at 0) by lia. cbn [ask]. change (2 ^ (0 - 0)) with 1. rewrite !Z.mul_1_r. f_equal.
    destruct (Z.compare_spec n m); cbn [holds]; lia.
  - destruct f; [discriminate Fb|]. cbn [number]. rewrite (I n _ Fa). rewrite (ltb_num _ _ (V n Fa) (tame_valid y Tb)).
    destruct (cmp_total (float_num (of_int n)) (float_num y)) as (c & ->).
    + destruct (normalize_valid n 0 false) as (_ & N & _). unfold of_int. destruct (binary_normalize _ _ _ _ _); easy.
    + destruct y; easy.
    + destruct c; reflexivity.
  - destruct f; [discriminate Fa|]. cbn [number]. rewrite (cmp_opp (Fin m 0)), (I m _ Fb), <- cmp_opp. rewrite (ltb_num _ _ (tame_valid x Ta) (V m Fb)).
    destruct (cmp_total (float_num x) (float_num (of_int m))) as (c & ->).
    + destruct x; easy.
    + destruct (normalize_valid m 0 false) as (_ & N & _). unfold of_int. destruct (binary_normalize _ _ _ _ _); easy.
    + destruct c; reflexivity.
  - rewrite (ltb_num _ _ (tame_valid x Ta) (tame_valid y Tb)).
    destruct (cmp_total (float_num x) (float_num y)) as (c & ->); [destruct x; easy|destruct y; easy|destruct c; reflexivity].
Qed.

Lemma loop_ok o g fin l : (forall r, fin [] r = match r with [] => holds o Eq | _ => holds o Lt end) ->
  (forall x l, fin (x :: l) [] = holds o Gt) -> holds o Gt = true -> holds o Lt = false -> forall r,
  (forall x y, In x l -> In y r -> g x y = ask Gt_ (c3 x y) /\ g y x = ask Gt_ (c3 y x)) ->
  seq_loop g fin l r = ask o (items3 l r).
Proof.
  intros F0 F1 OG OL. induction l as [|x l IH]; intros r H.
  - destruct r; cbn [seq_loop items3 ask]; rewrite F0; reflexivity.
  - destruct r as [|y r]; cbn [seq_loop items3 ask]; [rewrite F1; reflexivity|].
    destruct (H x y ltac:(left; reflexivity) ltac:(left; reflexivity)) as (-> & ->). rewrite (c3_opp x y).
    destruct (c3 x y) as [[]|]; cbn [ask bind opp3 CompOpp holds]; rewrite ?OG, ?OL; try reflexivity.
    apply IH. intros u v U W. apply H; right; assumption.
Qed.

Lemma depth_item x l : In x l -> (depth x < depth (VList l))%nat.
Proof.
  cbn [depth]. intros H. apply Nat.lt_succ_r. induction l as [|y l IH]; [destruct H|]. cbn [fold_right].
  destruct H as [->|H]; [lia|]. specialize (IH H). lia.
Qed.
Lemma gt_ok f : forall fuel a b, good f a = true -> good f b = true -> (depth a + depth b < fuel)%nat ->
  gt_fuel fuel a b = ask Gt_ (c3 a b).
Proof.
  induction fuel as [|fuel IH]; intros a b Ga Gb D; [lia|]. assert (N := num_gt f a b Ga Gb).
  destruct a as [|n|x|s|s|l|l]; cbn [gt_fuel]; try exact N; try discriminate Ga.
  - destruct b as [| | |t|t| |]; cbn [c3]; rewrite ?number_float; try reflexivity. rewrite compare_lex. destruct (lex s t); reflexivity.
  - destruct b as [| | |t|t| |]; cbn [c3]; rewrite ?number_float; try reflexivity. rewrite compare_lex. destruct (lex s t); reflexivity.
  - destruct b as [| | |t|t|r|]; try (cbn [c3]; rewrite ?number_float; reflexivity). rewrite c3_list.
    apply loop_ok; try reflexivity; [intros []; reflexivity|]. intros x y X Y.
    apply good_items in Ga, Gb. rewrite forallb_forall in Ga, Gb.
    pose proof (depth_item x l X). pose proof (depth_item y r Y).
    split; apply IH; auto; lia.
Qed.
Lemma items_ge f l r fuel : forallb (good f) l = true -> forallb (good f) r = true ->
  (forall x y, In x l -> In y r -> (depth x + depth y < fuel)%nat) ->
  seq_loop (gt_fuel fuel) right_done l r = ask Ge_ (items3 l r).
Proof.
  intros Gl Gr D. apply loop_ok; try reflexivity. intros x y X Y.
  rewrite forallb_forall in Gl, Gr. specialize (D x y X Y). split; apply (gt_ok f); auto; lia.
Qed.
Lemma exact_good a b : tame a = true -> tame b = true -> exact_with a b = true -> exists f, good f a = true /\ good f b = true.
Proof.
  intros Ta Tb H. unfold exact_with in H. apply orb_true_iff in H. destruct H as [H|H]; apply andb_true_iff in H; destruct H as (A & B);
    [exists true|exists false]; unfold good; rewrite Ta, Tb, A, B; auto.
Qed.
Definition opp_op (o : op) : op := match o with Gt_ => Le_ | Ge_ => Lt_ | Lt_ => Ge_ | Le_ => Gt_ end.
Lemma ask_opp o c : (let! x := ask o c in Ok (negb x)) = ask (opp_op o) c.
Proof. destruct o, c as [[]|]; reflexivity. Qed.
Lemma answers_c3 o a b r : no_none a = true -> no_nan a = true -> no_nan b = true -> r = ask o (c3 a b) -> answers r (py_cmp o a b).
Proof. intros N A B ->. unfold answers. rewrite py_cmp_c3 by assumption. destruct (c3 a b); reflexivity. Qed.

Lemma gt_c3 a b : tame a = true -> tame b = true -> exact_with a b = true -> gt a b = ask Gt_ (c3 a b) /\ le a b = ask Le_ (c3 a b).
Proof.
  intros Ta Tb X. destruct (exact_good a b Ta Tb X) as (f & Ga & Gb).
  assert (E : gt a b = ask Gt_ (c3 a b)) by (apply (gt_ok f); auto; lia).
  split; [exact E|]. unfold le. rewrite E. apply (ask_opp Gt_).
Qed.

(** ge and lt, of values that are not floats *)
Definition whole (f : bool) (v : val) : bool :=
  match v with
  | VFloat _ => false
  | VTuple l => forallb (good f) l
  | _ => good f v
  end.
Lemma tuple_items l r : (forall x y, In x l -> In y r -> depth x + depth y < S (depth (VTuple l) + depth (VTuple r)))%nat.
Proof. intros x y X Y. pose proof (depth_item x l X). pose proof (depth_item y r Y). cbn [depth] in *. lia. Qed.
Lemma ge_c3 f a b : whole f a = true -> whole f b = true -> ge a b = ask Ge_ (c3 a b) /\ lt a b = ask Lt_ (c3 a b).
Proof.
  intros Wa Wb. assert (E : ge a b = ask Ge_ (c3 a b)).
  2: { split; [exact E|]. unfold lt. rewrite E. apply (ask_opp Ge_). }
  destruct a as [|n|x|s|s|l|l]; try discriminate Wa; cbn [ge].
  - destruct b as [|m| | | | |]; try discriminate Wb; try reflexivity. cbn [ge_int c3 number]. rewrite (cmp_at 0) by lia.
    change (2 ^ (0 - 0)) with 1. rewrite !Z.mul_1_r. cbn [ask]. f_equal. destruct (Z.compare_spec n m); cbn [holds]; lia.
  - destruct b as [| | |t|t| |]; try discriminate Wb; try reflexivity. cbn [c3]. rewrite compare_lex. destruct (lex s t); reflexivity.
  - destruct b as [| | |t|t| |]; try discriminate Wb; try reflexivity. cbn [c3]. rewrite compare_lex. destruct (lex s t); reflexivity.
  - destruct b as [| | | | |r|]; try discriminate Wb; try reflexivity. rewrite c3_list.
    apply (items_ge f); [apply good_items, Wa|apply good_items, Wb|]. exact (tuple_items l r).
  - destruct b as [| | | | | |r]; try discriminate Wb; try reflexivity. rewrite c3_tuple.
    apply (items_ge f); [exact Wa|exact Wb|]. exact (tuple_items l r).
Qed.

(** A >= that holds is never denied between finite numbers *)
Lemma sf_eq x y : SFcompare x y = Some Eq -> finite x = true -> almost_equals x y = true.
Proof.
  destruct x as [s|s| |s m e], y as [t|t| |t n g]; intros H F; try discriminate F; try discriminate H;
    try (destruct s; discriminate H); try (destruct t; discriminate H).
  - destruct s, t; vm_compute; reflexivity.
  - cbn [SFcompare] in H. assert (s = t /\ e = g /\ m = n) as (-> & -> & ->).
    { destruct s, t; try discriminate; injection H as H; destruct (Z.compare_spec e g) as [->| |]; try discriminate;
        change (Pos.compare_cont Eq m n) with (Pos.compare m n) in H; destruct (Pos.compare_spec m n) as [->| |]; try discriminate; auto. }
    rewrite almost_equals_self. reflexivity.
Qed.
Definition dbl (v : val) : double := match v with VInt n => of_int n | VFloat x => x | _ => S754_nan end.
Lemma dbl_num v : small_ints v = true -> tame v = true -> forall x, number v = Some x -> valid (dbl v) /\ forall c, num_cmp (float_num (dbl v)) c = num_cmp x c.
Proof.
  intros Sv Tv x. destruct v as [|n|y| | | |]; try discriminate.
  - cbn [number dbl]. intros E. injection E as <-. cbn in Sv. apply of_int_exact. lia.
  - rewrite number_float. cbn [dbl]. intros E. injection E as <-. split; [apply tame_valid, Tv|reflexivity].
Qed.
Lemma float_ge a b x y : number a = Some x -> number b = Some y -> tame a = true -> tame b = true ->
  small_ints a = true -> small_ints b = true -> is_float a || is_float b = true ->
  ge a b = Ok (almost_equals (dbl a) (dbl b) || SFltb (dbl b) (dbl a)) /\ SFcompare (dbl a) (dbl b) = num_cmp x y.
Proof.
  intros Na Nb Ta Tb Sa Sb F. split.
  - destruct a; try discriminate Na; destruct b; try discriminate Nb; try discriminate F; reflexivity.
  - destruct (dbl_num a Sa Ta x Na) as (Va & Ea). destruct (dbl_num b Sb Tb y Nb) as (Vb & Eb).
    rewrite sf_cmp by assumption. rewrite Ea, cmp_opp, Eb, <- cmp_opp. reflexivity.
Qed.

(** ** A total order that extends it *)
Definition rank (v : val) : Z :=
  match v with VNone => 0 | VInt _ | VFloat _ => 1 | VBytes _ => 2 | VStr _ => 3 | VList _ => 4 | VTuple _ => 5 end.
Definition ncmp (x y : num) : comparison :=
  match num_cmp x y with Some c => c | None => match x, y with NaN, NaN => Eq | NaN, _ => Lt | _, _ => Gt end end.
Definition num_of (v : val) : num := match number v with Some x => x | None => NaN end.
Fixpoint c4 (a b : val) {struct a} : comparison :=
  let items := fix items (l r : list val) : comparison :=
    match l, r with
    | [], [] => Eq
    | [], _ => Lt
    | _, [] => Gt
    | x :: l, y :: r => match c4 x y with Eq => items l r | c => c end
    end in
  match a, b with
  | VBytes s, VBytes t | VStr s, VStr t => lex s t
  | VList l, VList r | VTuple l, VTuple r => items l r
  | _, _ => match rank a ?= rank b with Eq => ncmp (num_of a) (num_of b) | c => c end
  end.
Fixpoint items4 (l r : list val) : comparison :=
  match l, r with
  | [], [] => Eq
  | [], _ => Lt
  | _, [] => Gt
  | x :: l, y :: r => match c4 x y with Eq => items4 l r | c => c end
  end.
Lemma c4_list l r : c4 (VList l) (VList r) = items4 l r. Proof. reflexivity. Qed.
Lemma c4_tuple l r : c4 (VTuple l) (VTuple r) = items4 l r. Proof. reflexivity. Qed.
Definition solid (a b : val) : bool :=
  match a, b with VBytes _, VBytes _ | VStr _, VStr _ | VList _, VList _ | VTuple _, VTuple _ => false | _, _ => true end.
Lemma c4_rank a b : solid a b = true -> c4 a b = match rank a ?= rank b with Eq => ncmp (num_of a) (num_of b) | c => c end.
Proof. destruct a, b; try discriminate; reflexivity. Qed.

Lemma ncmp_opp x y : ncmp y x = CompOpp (ncmp x y).
Proof. unfold ncmp. rewrite (cmp_opp x y). destruct (num_cmp x y) as [c|] eqn:E; [reflexivity|]. destruct x, y; try discriminate E; reflexivity. Qed.
Lemma num_none x y : num_cmp x y = None -> x = NaN \/ y = NaN.
Proof. destruct x, y; auto; discriminate. Qed.
Lemma ncmp_eq_l x y z : ncmp x y = Eq -> ncmp x z = ncmp y z.
Proof.
  unfold ncmp. destruct (num_cmp x y) as [c|] eqn:E.
  - intros ->. rewrite (cmp_eq_l x y z E). destruct x, y; try discriminate E; reflexivity.
  - destruct x, y; try discriminate E; try discriminate; reflexivity.
Qed.
Lemma ncmp_trans x y z : ncmp x y = Lt -> ncmp y z = Lt -> ncmp x z = Lt.
Proof.
  unfold ncmp. destruct x as [|s|m e]; [destruct y; try discriminate; destruct z; try discriminate; reflexivity|..];
    (destruct y as [|t|n f]; [discriminate|..]; (destruct z as [|u|k g]; [discriminate|..]);
     match goal with |- match ?a with _ => _ end = _ -> match ?b with _ => _ end = _ -> match ?c with _ => _ end = _ =>
       destruct a as [p|] eqn:A; [|discriminate A]; destruct b as [q|] eqn:B; [|discriminate B]; intros -> ->; rewrite (cmp_trans _ _ _ A B); reflexivity end).
Qed.

Lemma items4_opp l : Forall (fun x => forall y, c4 y x = CompOpp (c4 x y)) l -> forall r, items4 r l = CompOpp (items4 l r).
Proof.
  induction 1 as [|x l Hx Hl IH]; intros [|y r]; try reflexivity. cbn [items4]. rewrite Hx.
  destruct (c4 x y); cbn [CompOpp]; try reflexivity. apply IH.
Qed.
Lemma solid_sym a b : solid a b = solid b a. Proof. destruct a, b; reflexivity. Qed.
Lemma rank_opp a b : solid a b = true -> c4 b a = CompOpp (c4 a b).
Proof.
  intros H. rewrite (c4_rank a b H), c4_rank by (rewrite solid_sym; exact H). rewrite (Z.compare_antisym (rank a)), ncmp_opp.
  destruct (rank a ?= rank b); reflexivity.
Qed.
Lemma c4_opp a : forall b, c4 b a = CompOpp (c4 a b).
Proof.
  induction a as [|n|x|s|s|l IH|l IH] using val_ind'; intros b;
    match goal with |- c4 _ ?a = _ => destruct (solid a b) eqn:So; [apply rank_opp, So|] end; destruct b; try discriminate So.
  1,2: apply lex_opp.
  - rewrite !c4_list. apply items4_opp, IH.
  - rewrite !c4_tuple. apply items4_opp, IH.
Qed.

Lemma c4_rank_eq a b : c4 a b = Eq -> rank a = rank b.
Proof. destruct (solid a b) eqn:S; [rewrite c4_rank by exact S; destruct (Z.compare_spec (rank a) (rank b)); easy|destruct a, b; try discriminate S; reflexivity]. Qed.
Lemma c4_rank_lt a b : c4 a b = Lt -> rank a <= rank b.
Proof. destruct (solid a b) eqn:S; [rewrite c4_rank by exact S; destruct (Z.compare_spec (rank a) (rank b)); (lia || discriminate)|destruct a, b; try discriminate S; cbn; lia]. Qed.
Lemma c4_by_rank a b : rank a <> rank b -> c4 a b = (rank a ?= rank b).
Proof.
  intros H. rewrite c4_rank by (destruct a, b; try reflexivity; destruct (H eq_refl)).
  destruct (Z.compare_spec (rank a) (rank b)); [contradiction|reflexivity|reflexivity].
Qed.

Lemma items4_eq l : Forall (fun x => forall y z, c4 x y = Eq -> c4 x z = c4 y z) l -> forall r t, items4 l r = Eq -> items4 l t = items4 r t.
Proof.
  induction 1 as [|x l Hx Hl IH]; intros [|y r] t; try discriminate; [reflexivity|].
  cbn [items4]. destruct (c4 x y) eqn:E; try discriminate. intros H. destruct t as [|z t]; [reflexivity|]. rewrite (Hx y z E), (IH r t H). reflexivity.
Qed.
Lemma c4_eq_l a : forall b c, c4 a b = Eq -> c4 a c = c4 b c.
Proof.
  induction a as [|n|x|s|s|l IH|l IH] using val_ind'; intros b c E; assert (R := c4_rank_eq _ _ E);
    destruct (Z.eq_dec (rank b) (rank c)) as [Q|Q]; try (rewrite !c4_by_rank by congruence; congruence).
  - destruct b; try discriminate R. reflexivity.
  - destruct b; try discriminate R; destruct c; try discriminate Q; rewrite c4_rank in * by reflexivity; rewrite c4_rank by reflexivity;
      cbn [rank Z.compare Pos.compare Pos.compare_cont] in *; apply ncmp_eq_l, E.
  - destruct b; try discriminate R; destruct c; try discriminate Q; rewrite c4_rank in * by reflexivity; rewrite c4_rank by reflexivity;
      cbn [rank Z.compare Pos.compare Pos.compare_cont] in *; apply ncmp_eq_l, E.
  - destruct b; try discriminate R. apply lex_eq in E. subst. reflexivity.
  - destruct b; try discriminate R. apply lex_eq in E. subst. reflexivity.
  - destruct b; try discriminate R; destruct c; try discriminate Q. rewrite c4_list in *. apply items4_eq; assumption.
  - destruct b; try discriminate R; destruct c; try discriminate Q. rewrite c4_tuple in *. apply items4_eq; assumption.
Qed.
Lemma c4_eq_r a b c : c4 b c = Eq -> c4 a b = c4 a c.
Proof. intros E. rewrite (c4_opp b a), (c4_opp c a), (c4_eq_l b c a E). reflexivity. Qed.

Lemma items4_trans l : Forall (fun x => forall y z, c4 x y = Lt -> c4 y z = Lt -> c4 x z = Lt) l ->
  forall r t, items4 l r = Lt -> items4 r t = Lt -> items4 l t = Lt.
Proof.
  induction 1 as [|x l Hx Hl IH]; intros [|y r] [|z t]; try discriminate; [reflexivity|].
  cbn [items4]. destruct (c4 x y) eqn:E; try discriminate; destruct (c4 y z) eqn:F; try discriminate.
  - rewrite (c4_eq_l x y z E), F. apply IH.
  - rewrite (c4_eq_l x y z E), F. reflexivity.
  - rewrite <- (c4_eq_r x y z F), E. reflexivity.
  - rewrite (Hx y z E F). reflexivity.
Qed.
Lemma c4_trans a : forall b c, c4 a b = Lt -> c4 b c = Lt -> c4 a c = Lt.
Proof.
  induction a as [|n|x|s|s|l IH|l IH] using val_ind'; intros b c E F; assert (R := c4_rank_lt _ _ E); assert (Q := c4_rank_lt _ _ F);
    match goal with |- c4 ?a _ = _ => destruct (Z.eq_dec (rank a) (rank c)) as [P|P]; [|rewrite c4_by_rank by exact P; apply Z.compare_lt_iff; lia] end.
  - destruct b; try (cbn in *; lia); destruct c; try (cbn in *; lia). discriminate E.
  - destruct b; try (cbn in *; lia); destruct c; try (cbn in *; lia); rewrite c4_rank in E, F by reflexivity; rewrite c4_rank by reflexivity;
      cbn [rank Z.compare Pos.compare Pos.compare_cont] in *; apply (ncmp_trans _ _ _ E F).
  - destruct b; try (cbn in *; lia); destruct c; try (cbn in *; lia); rewrite c4_rank in E, F by reflexivity; rewrite c4_rank by reflexivity;
      cbn [rank Z.compare Pos.compare Pos.compare_cont] in *; apply (ncmp_trans _ _ _ E F).
  - destruct b; try (cbn in *; lia); destruct c; try (cbn in *; lia). exact (lex_trans _ _ _ E F).
  - destruct b; try (cbn in *; lia); destruct c; try (cbn in *; lia). exact (lex_trans _ _ _ E F).
  - destruct b; try (cbn in *; lia); destruct c; try (cbn in *; lia). exact (items4_trans _ IH _ _ E F).
  - destruct b; try (cbn in *; lia); destruct c; try (cbn in *; lia). exact (items4_trans _ IH _ _ E F).
Qed.

Lemma items_34 l : Forall (fun x => forall y c, c3 x y = Some c -> c4 x y = c) l -> forall r c, items3 l r = Some c -> items4 l r = c.
Proof.
  induction 1 as [|x l Hx Hl IH]; intros [|y r] c; cbn [items3 items4]; try (intros E; injection E as <-; reflexivity).
  destruct (c3 x y) as [d|] eqn:E; [|discriminate]. rewrite (Hx y d E). destruct d; [apply IH|intros H; injection H as <-; reflexivity|intros H; injection H as <-; reflexivity].
Qed.
Lemma c3_c4 a : forall b c, c3 a b = Some c -> c4 a b = c.
Proof.
  assert (NN : forall x y c, num_cmp x y = Some c -> ncmp x y = c) by (intros x y c E; unfold ncmp; rewrite E; reflexivity).
  induction a as [|n|x|s|s|l IH|l IH] using val_ind'; intros b c E.
  - destruct b as [| |[]| | | |]; discriminate E.
  - destruct b as [|m|y| | | |]; try discriminate E; rewrite c4_rank by reflexivity; cbn [rank Z.compare Pos.compare Pos.compare_cont];
      unfold num_of; cbn [c3] in E; match type of E with match ?a with _ => _ end = _ => destruct a; [|discriminate E] end;
      match type of E with match ?a with _ => _ end = _ => destruct a; [|discriminate E] end; apply NN, E.
  - destruct b as [|m|y| | | |]; try (destruct x; discriminate E); rewrite c4_rank by reflexivity; cbn [rank Z.compare Pos.compare Pos.compare_cont];
      unfold num_of; cbn [c3] in E; match type of E with match ?a with _ => _ end = _ => destruct a; [|discriminate E] end;
      match type of E with match ?a with _ => _ end = _ => destruct a; [|discriminate E] end; apply NN, E.
  - destruct b as [| |[]| | | |]; try discriminate E. injection E as <-. reflexivity.
  - destruct b as [| |[]| | | |]; try discriminate E. injection E as <-. reflexivity.
  - destruct b as [| |[]| | | |]; try discriminate E. apply items_34; assumption.
  - destruct b as [| |[]| | | |]; try discriminate E. apply items_34; assumption.
Qed.

(** ** Equality *)
Lemma list_eq_lex s : forall t, list_eq s t = match lex s t with Eq => true | _ => false end.
Proof.
  intros t. destruct (list_eq s t) eqn:E.
  - apply list_eq_iff in E. subst. rewrite lex_refl. reflexivity.
  - destruct (lex s t) eqn:L; try reflexivity. apply lex_eq in L. subst. rewrite (proj2 (list_eq_iff t t) eq_refl) in E. discriminate.
Qed.
Lemma int_eq n m : num_cmp (Fin n 0) (Fin m 0) = Some (n ?= m).
Proof. rewrite (cmp_at 0) by lia. change (2 ^ (0 - 0)) with 1. rewrite !Z.mul_1_r. reflexivity. Qed.
Lemma eq_py a : floatless a = true -> forall b, floatless b = true -> eq a b = py_eq a b.
Proof.
  induction a as [|n|x|s|s|l IH|l IH] using val_ind'; intros Fa b Fb; try discriminate Fa.
  1: destruct b; try discriminate Fb; reflexivity.
  1: destruct b; try discriminate Fb; try reflexivity; cbn [eq py_eq number]; rewrite int_eq; destruct (Z.compare_spec n n0); lia.
  1,2: destruct b; try discriminate Fb; try reflexivity; cbn [eq py_eq]; apply list_eq_lex.
  all: destruct b as [| | | | |r|r]; try discriminate Fb; try reflexivity; cbn [eq py_eq]; cbn [floatless] in Fa, Fb; revert r Fb;
    induction IH as [|x l Hx Hl IHl]; intros [|y r] Fb; try reflexivity; cbn [forallb] in *; apply andb_true_iff in Fa, Fb;
    destruct Fa as (A1 & A2), Fb as (B1 & B2); rewrite (Hx A1 y B1), (IHl A2 r B2); destruct (py_eq x y); reflexivity.
Qed.
Lemma of_int_finite n : Z.abs n <= 2 ^ 53 -> finite (of_int n) = true.
Proof.
  intros H. destruct (normalize_valid n 0 false) as (_ & N & I). unfold of_int.
  destruct (binary_normalize 53 1024 n 0 false) as [|t| |] eqn:E; try reflexivity; [|contradiction].
  exfalso. refine (I _ ltac:(lia) t eq_refl). assert (2 ^ 53 < 2 ^ (1023 - 0)) by (apply Z.pow_lt_mono_r; lia). lia.
Qed.
Lemma eq_floats a : finite_floats a = true -> small_ints a = true -> forall b, finite_floats b = true -> small_ints b = true ->
  py_eq a b = true -> eq a b = true.
Proof.
  assert (N : forall x, finite_floats (VFloat x) = true -> tame (VFloat x) = true /\ finite x = true) by (intros []; cbn; auto; discriminate).
  assert (G : forall a b x y, number a = Some x -> number b = Some y -> tame a = true -> tame b = true -> small_ints a = true -> small_ints b = true ->
    finite (dbl a) = true -> is_float a || is_float b = true -> num_cmp x y = Some Eq -> almost_equals (dbl a) (dbl b) = true).
  { intros u v x y Nu Nv Tu Tv Su Sv F I E. apply sf_eq; [|exact F].
    rewrite (proj2 (float_ge u v x y Nu Nv Tu Tv Su Sv I)). exact E. }
  assert (O : forall n, small_ints (VInt n) = true -> finite (of_int n) = true) by (intros n H; apply of_int_finite; cbn in H; lia).
  assert (Q : forall u v x y, number u = Some x -> number v = Some y -> (match num_cmp x y with Some Eq => true | _ => false end) = true -> num_cmp x y = Some Eq)
    by (intros u v x y _ _; destruct (num_cmp x y) as [[]|]; easy).
  induction a as [|n|x|s|s|l IH|l IH] using val_ind'; intros Fa Sa b Fb Sb E.
  - destruct b as [| |[]| | | |]; try discriminate E; reflexivity.
  - destruct b as [|m|y| | | |]; try discriminate E.
    + rewrite eq_py by reflexivity. exact E.
    + cbn [eq]. cbn [py_eq] in E. rewrite number_float in E. destruct (N y Fb) as (T & _).
      exact (G (VInt n) (VFloat y) _ _ eq_refl (number_float y) eq_refl T Sa Sb (O n Sa) eq_refl (Q (VInt n) (VFloat y) _ _ eq_refl (number_float y) E)).
  - destruct (N x Fa) as (T & F). destruct b as [|m|y| | | |]; cbn [py_eq] in E; rewrite number_float in E; try discriminate E.
    + cbn [eq].
      exact (G (VFloat x) (VInt m) _ _ (number_float x) eq_refl T eq_refl Sa Sb F eq_refl (Q (VFloat x) (VInt m) _ _ (number_float x) eq_refl E)).
    + destruct (N y Fb) as (T' & _). rewrite number_float in E. cbn [eq].
      exact (G (VFloat x) (VFloat y) _ _ (number_float x) (number_float y) T T' Sa Sb F eq_refl (Q (VFloat x) (VFloat y) _ _ (number_float x) (number_float y) E)).
  - destruct b as [| |[]| | | |]; try discriminate E. rewrite eq_py by reflexivity. exact E.
  - destruct b as [| |[]| | | |]; try discriminate E. rewrite eq_py by reflexivity. exact E.
  - destruct b as [| |[]| | |r|r]; try discriminate E. cbn [eq]. cbn [py_eq] in E. cbn [finite_floats small_ints] in *. revert r Fb Sb E.
    induction IH as [|x l Hx Hl IHl]; intros [|y r] Fb Sb E; try discriminate E; [reflexivity|]. cbn [forallb] in *.
    apply andb_true_iff in Fa, Sa, Fb, Sb, E. destruct Fa, Sa, Fb, Sb, E as (E1 & E2). rewrite (Hx ltac:(assumption) ltac:(assumption) y) by assumption.
    apply IHl; assumption.
  - destruct b as [| |[]| | |r|r]; try discriminate E. cbn [eq]. cbn [py_eq] in E. cbn [finite_floats small_ints] in *. revert r Fb Sb E.
    induction IH as [|x l Hx Hl IHl]; intros [|y r] Fb Sb E; try discriminate E; [reflexivity|]. cbn [forallb] in *.
    apply andb_true_iff in Fa, Sa, Fb, Sb, E. destruct Fa, Sa, Fb, Sb, E as (E1 & E2). rewrite (Hx ltac:(assumption) ltac:(assumption) y) by assumption.
    apply IHl; assumption.
Qed.

(** ** Best items *)
Lemma c4_gt_trans a b c : c4 a b = Gt -> c4 b c = Gt -> c4 a c = Gt.
Proof.
  intros E F. rewrite c4_opp in E, F. rewrite c4_opp.
  assert (c4 b a = Lt) by (destruct (c4 b a); easy). assert (c4 c b = Lt) by (destruct (c4 c b); easy). rewrite (c4_trans c b a) by assumption. reflexivity.
Qed.
Lemma best_ok (d : comparison) better l : d <> Eq -> forall pre m p q,
  (forall x y, In x (pre ++ l) -> In y (pre ++ l) -> better x y = Ok (match c4 x y, d with Lt, Lt | Gt, Gt => true | _, _ => false end)) ->
  pre = p ++ m :: q -> (forall y, In y p -> c4 m y = d) -> (forall y, In y q -> c4 y m <> d) ->
  exists x p' q', best better m l = Ok x /\ pre ++ l = p' ++ x :: q' /\ (forall y, In y p' -> c4 x y = d) /\ (forall y, In y q' -> c4 y x <> d).
Proof.
  intros D. induction l as [|x l IH]; intros pre m p q B E P Q.
  - exists m, p, q. rewrite app_nil_r. cbn [best]. auto.
  - cbn [best]. rewrite B; [|apply in_or_app; right; left; reflexivity|apply in_or_app; left; subst pre; apply in_or_app; right; left; reflexivity].
    cbn [bind].
    replace (pre ++ x :: l) with ((pre ++ [x]) ++ l) in * by (rewrite <- app_assoc; reflexivity).
    destruct (match c4 x m, d with Lt, Lt | Gt, Gt => true | _, _ => false end) eqn:C.
    + assert (C' : c4 x m = d) by (destruct (c4 x m), d; try discriminate C; reflexivity).
      apply (IH (pre ++ [x]) x pre []); [exact B|reflexivity| |intros y []].
      intros y Y. subst pre. apply in_app_or in Y. destruct Y as [Y|[->|Y]]; [|exact C'|].
      * specialize (P y Y). destruct d; [easy|eapply c4_trans; eassumption|eapply c4_gt_trans; eassumption].
      * specialize (Q y Y). rewrite c4_opp in Q. destruct (c4 m y) eqn:M.
        -- rewrite <- (c4_eq_r x m y M). exact C'.
        -- destruct d; [easy|exact (c4_trans x m y C' M)|elim Q; reflexivity].
        -- destruct d; [easy|elim Q; reflexivity|exact (c4_gt_trans x m y C' M)].
    + assert (C' : c4 x m <> d) by (intros <-; destruct (c4 x m); try discriminate C; elim D; reflexivity).
      apply (IH (pre ++ [x]) m p (q ++ [x])); [exact B| |exact P|].
      * subst pre. rewrite <- app_assoc. reflexivity.
      * intros y Y. apply in_app_or in Y. destruct Y as [Y|[<-|[]]]; [exact (Q y Y)|exact C'].
Qed.
