(** Folding preserves the value of an expression. *)
From Verif Require Import Base IntModel IntProofs KeyModel FloatAux FoldModel FoldSpec.
From Coq Require Import Floats.SpecFloat.

Definition s32 : cty := CI true 32.
Definition s64 : cty := CI true 64.
Definition range (b z : Z) : Prop := - 2 ^ (b - 1) <= z < 2 ^ (b - 1).

Inductive rel : dtype -> cval -> dtype -> cval -> Prop :=
| rel_bool z : z = 0 \/ z = 1 -> rel DBool (VI CBool z) DBool (VI CBool z)
| rel_bool32 z : z = 0 \/ z = 1 -> rel DBool (VI CBool z) (DInt 32) (VI s32 z)
| rel_32 z t : range 32 z -> t = s32 \/ t = s64 -> rel (DInt 32) (VI s32 z) (DInt 32) (VI t z)
| rel_64 z : range 64 z -> rel (DInt 64) (VI s64 z) (DInt 64) (VI s64 z)
| rel_f x y : finite_double x -> finite_double y -> feq x y -> rel DF64 (VF x) DF64 (VF y).

Definition lit_ok (d : dtype) (z : Z) : Prop :=
  (d = DBool /\ (z = 0 \/ z = 1)) \/ ((d = DInt 32 \/ d = DInt 64) /\ int64 z).
Definition lits (e : expr) : Prop := forall d z, e = EInt d z -> lit_ok d z.
Definition near (d d' : dtype) : Prop := d' = d \/ (d = DBool /\ d' = DInt 32).

Definition sim (env : nat -> res cval) (d : dtype) (p e : expr) : Prop :=
  near d (dt e) /\ lits e /\
  forall v, eval env p = Ok v -> exists v', eval env e = Ok v' /\ rel d v (dt e) v'.

(** ** Integers *)
Lemma int64_range z : int64 z <-> range 64 z.
Proof. reflexivity. Qed.
Lemma conv32 z : range 32 z -> conv s32 z = z.
Proof. unfold range, conv, s32. intros H. change (32 - 1) with 31 in *. rewrite Z.mod_small; lia. Qed.
Lemma conv64 z : range 64 z -> conv s64 z = z.
Proof. unfold range, conv, s64. intros H. change (64 - 1) with 63 in *. rewrite Z.mod_small; lia. Qed.
Lemma range_32_64 z : range 32 z -> range 64 z.
Proof. unfold range. change (32 - 1) with 31. change (64 - 1) with 63. lia. Qed.
Lemma conv_range b z : 0 < b -> range b (conv (CI true b) z).
Proof.
  intros Hb. unfold conv, range. pose proof (Z.mod_pos_bound (z + 2 ^ (b - 1)) (2 ^ b)).
  assert (2 ^ b = 2 * 2 ^ (b - 1)). { rewrite <- Z.pow_succ_r by lia. f_equal. lia. }
  assert (0 < 2 ^ b) by (apply Z.pow_pos_nonneg; lia). lia.
Qed.
Lemma std_pow : 2 ^ (64 - 1) = 2 ^ 63 /\ 2 ^ (32 - 1) = 2 ^ 31. Proof. split; reflexivity. Qed.

Lemma lit_val d z : lit_ok d z -> exists t, lit d z = VI t z /\
  ((d = DBool /\ t = CBool) \/ (d = DInt 32 /\ (t = s32 \/ t = s64) /\ (z = 0 \/ z = 1 -> t = s32)) \/ (d = DInt 64 /\ t = s64)).
Proof.
  intros [[-> H]|[[-> | ->] H]].
  - exists CBool. split; [|left; auto]. destruct H as [-> | ->]; reflexivity.
  - unfold lit. change (32 =? 32) with true. cbv iota. destruct (Z.ltb_spec (Z.abs z) (2 ^ 31)).
    + exists s32. split; [reflexivity|]. right; left. auto.
    + exists s64. split; [reflexivity|]. right; left. split; [reflexivity|]. split; [auto|]. intros [-> | ->]; cbn in *; lia.
  - exists s64. unfold lit. change (64 =? 32) with false. cbv iota. split; [|right; right; auto].
    f_equal. apply conv64, int64_range, H.
Qed.

Lemma of_int_finite z : range 64 z -> finite_double (of_int z).
Proof.
  intros H. unfold of_int. destruct (normalize_valid z 0 false) as (V & N & I).
  destruct (binary_normalize 53 1024 z 0 false) eqn:E; cbn [finite_double].
  - exact Logic.I.
  - destruct (I ltac:(unfold range in H; change (64 - 1) with 63 in H; lia) ltac:(lia) s eq_refl).
  - destruct (N eq_refl).
  - exact V.
Qed.
Lemma finite_valid x : finite_double x -> valid x.
Proof. destruct x; cbn; [reflexivity|reflexivity|contradiction|auto]. Qed.
Lemma feq_refl x : feq x x. Proof. left. reflexivity. Qed.
Lemma flit_finite x : finite_double x -> flit x = Ok (VF x).
Proof. destruct x; cbn; easy. Qed.
Lemma feq_finite x y : feq x y -> finite_double x -> finite_double y.
Proof. intros [->|(s & s' & -> & ->)]; auto. Qed.

(** the meaning of the operators on integers of [b] bits *)
Definition zmean (o : binop) (b x y z : Z) : Prop :=
  match o with
  | Add => z = x + y
  | Sub => z = x - y
  | Mul => z = x * y
  | Mod => y <> 0 /\ ~ (x = - 2 ^ (b - 1) /\ y = -1) /\ z = Z.rem x y
  | FloorDiv => b = 64 /\ y <> 0 /\ fast_floor_div_i64_i64 x y = Ok z
  | FloorMod => b = 64 /\ y <> 0 /\ fast_mod_i64_i64 x y = Ok z
  | BAnd => z = Z.land x y
  | BOr => z = Z.lor x y
  | BXor => z = Z.lxor x y
  | Shl => 0 <= y < b /\ 0 <= x /\ x * 2 ^ y < 2 ^ b /\ z = conv (CI true b) (x * 2 ^ y)
  | Shr => 0 <= y < b /\ z = Z.shiftr x y
  | _ => False
  end.

Definition arith_op (o : binop) : bool :=
  match o with
  | Add | Sub | Mul | Mod | FloorDiv | FloorMod | BAnd | BOr | BXor | Shl | Shr => true
  | _ => false
  end.

Lemma in_signed_iff b z : in_signed b z = true <-> range b z.
Proof. unfold in_signed, range. lia. Qed.

Lemma shiftr_range b z : 0 < b -> range b z <-> Z.shiftr z (b - 1) = 0 \/ Z.shiftr z (b - 1) = -1.
Proof.
  intros Hb. unfold range. rewrite Z.shiftr_div_pow2 by lia.
  assert (0 < 2 ^ (b - 1)) by (apply Z.pow_pos_nonneg; lia). set (m := 2 ^ (b - 1)) in *. clearbody m.
  pose proof (Z.div_mod z m ltac:(lia)). pose proof (Z.mod_pos_bound z m ltac:(lia)). split.
  - intros R. destruct (Z.lt_ge_cases z 0).
    + right. symmetry. apply Z.div_unique with (z + m); lia.
    + left. apply Z.div_small. lia.
  - intros [E|E]; rewrite E in H0; lia.
Qed.
Lemma land_range b x y : 0 < b -> range b x -> range b y -> range b (Z.land x y).
Proof.
  intros Hb Hx Hy. apply shiftr_range in Hx, Hy; [|assumption|assumption]. apply shiftr_range; [assumption|].
  rewrite Z.shiftr_land. destruct Hx as [-> | ->], Hy as [-> | ->]; auto.
Qed.
Lemma lor_range b x y : 0 < b -> range b x -> range b y -> range b (Z.lor x y).
Proof.
  intros Hb Hx Hy. apply shiftr_range in Hx, Hy; [|assumption|assumption]. apply shiftr_range; [assumption|].
  rewrite Z.shiftr_lor. destruct Hx as [-> | ->], Hy as [-> | ->]; auto.
Qed.
Lemma lxor_range b x y : 0 < b -> range b x -> range b y -> range b (Z.lxor x y).
Proof.
  intros Hb Hx Hy. apply shiftr_range in Hx, Hy; [|assumption|assumption]. apply shiftr_range; [assumption|].
  rewrite Z.shiftr_lxor. destruct Hx as [-> | ->], Hy as [-> | ->]; auto.
Qed.
Lemma shr_range b x y : 0 < b -> 0 <= y -> range b x -> range b (Z.shiftr x y).
Proof.
  intros Hb Hy. unfold range. rewrite Z.shiftr_div_pow2 by lia.
  assert (0 < 2 ^ y) by (apply Z.pow_pos_nonneg; lia). set (m := 2 ^ y) in *. clearbody m.
  set (k := 2 ^ (b - 1)). clearbody k. intros R.
  pose proof (Z.div_mod x m ltac:(lia)). pose proof (Z.mod_pos_bound x m ltac:(lia)). nia.
Qed.
Lemma rem_range b x y : y <> 0 -> ~ (x = - 2 ^ (b - 1) /\ y = -1) -> range b x -> range b (Z.rem x y).
Proof.
  unfold range. intros Hy Hn R. pose proof (Z.rem_bound_abs x y Hy).
  destruct (Z.lt_ge_cases x 0).
  - pose proof (Z.rem_nonpos x y Hy ltac:(lia)).
    assert (x <= Z.rem x y); [|lia].
    pose proof (Z.rem_le (- x) (Z.abs y)). rewrite Z.rem_opp_l, Z.rem_abs_r in * by lia. lia.
  - pose proof (Z.rem_nonneg x y Hy ltac:(lia)).
    assert (Z.rem x y <= x); [|lia].
    pose proof (Z.rem_le x (Z.abs y)). rewrite Z.rem_abs_r in * by lia. lia.
Qed.
Lemma wraps64_range z : range 64 (wraps64 z).
Proof. unfold range, wraps64. change (64 - 1) with 63. pose proof (Z.mod_pos_bound (z + two63) two64). unfold two63, two64 in *. lia. Qed.
Lemma floor_div_range x y z : range 64 x -> range 64 y -> fast_floor_div_i64_i64 x y = Ok z -> range 64 z.
Proof.
  intros Hx Hy. destruct (Z.eq_dec y 0) as [->|N]; [discriminate|]. rewrite div_i64 by assumption. intros [= <-].
  apply wraps64_range.
Qed.
Lemma floor_mod_range x y z : range 64 x -> range 64 y -> fast_mod_i64_i64 x y = Ok z -> range 64 z.
Proof.
  intros Hx Hy. destruct (Z.eq_dec y 0) as [->|N]; [discriminate|]. rewrite mod_i64 by assumption. intros [= <-].
  unfold range in *. pose proof (Z.mod_pos_bound x y). pose proof (Z.mod_neg_bound x y). lia.
Qed.

Lemma int_ref o b x y w : b = 32 \/ b = 64 -> range b x -> range b y -> arith_op o = true ->
  int_op o (CI true b) x (CI true b) y = Ok w ->
  exists z, w = VI (CI true b) z /\ range b z /\ zmean o b x y z.
Proof.
  intros Hb Rx Ry Ho. assert (B : 0 < b) by lia.
  assert (C : common (CI true b) (CI true b) = CI true b) by (destruct Hb as [-> | ->]; reflexivity).
  assert (P : promote (CI true b) = CI true b) by (destruct Hb as [-> | ->]; reflexivity).
  assert (Cx : conv (CI true b) x = x) by (destruct Hb as [-> | ->]; [apply conv32|apply conv64]; assumption).
  assert (Cy : conv (CI true b) y = y) by (destruct Hb as [-> | ->]; [apply conv32|apply conv64]; assumption).
  unfold int_op. rewrite C, P, Cx, Cy. destruct o; try discriminate Ho; cbn [zmean fit]; rewrite ?Cx.
  1,2,3: match goal with |- context [in_signed ?bb ?v] => destruct (in_signed bb v) eqn:?E; [|discriminate] end;
    intros [= <-]; eexists; split; [reflexivity|]; split; [apply in_signed_iff; assumption|reflexivity].
  - destruct (Z.eqb_spec y 0); [discriminate|]. destruct (_ && _) eqn:M; [discriminate|]. intros [= <-].
    eexists. split; [reflexivity|]. assert (~ (x = - 2 ^ (b - 1) /\ y = -1)) by lia.
    split; [apply rem_range; assumption|auto].
  - destruct Hb as [-> | ->]; [discriminate|]. unfold s64 in *. rewrite Cx, Cy.
    destruct (fast_floor_div_i64_i64 x y) as [z| | |] eqn:E; cbn [bind]; try discriminate. intros [= <-].
    exists z. split; [reflexivity|]. split; [apply floor_div_range with x y; assumption|].
    split; [reflexivity|]. split; [|reflexivity]. intros ->. discriminate E.
  - destruct Hb as [-> | ->]; [discriminate|]. unfold s64 in *. rewrite Cx, Cy.
    destruct (fast_mod_i64_i64 x y) as [z| | |] eqn:E; cbn [bind]; try discriminate. intros [= <-].
    exists z. split; [reflexivity|]. split; [apply floor_mod_range with x y; assumption|].
    split; [reflexivity|]. split; [|reflexivity]. intros ->. discriminate E.
  - destruct ((0 <=? y) && (y <? b)) eqn:E; cbn [negb]; [|discriminate].
    destruct (true && _) eqn:F; [discriminate|]. cbn [andb] in F. intros [= <-].
    eexists. split; [reflexivity|]. split; [apply conv_range, B|]. apply andb_prop in E. apply orb_false_elim in F. destruct E as [E1 E2], F as [F1 F2]. apply Z.leb_le in E1. apply Z.ltb_lt in E2. apply Z.ltb_ge in F1. apply Z.leb_gt in F2. auto.
  - destruct ((0 <=? y) && (y <? b)) eqn:E; cbn [negb]; [|discriminate]. intros [= <-].
    eexists. split; [reflexivity|]. split; [apply shr_range; [assumption|lia|assumption]|]. lia.
  - assert (R := land_range b x y B Rx Ry). intros [= <-]. exists (Z.land x y).
    split; [f_equal; destruct Hb as [-> | ->]; [apply conv32|apply conv64]; assumption|auto].
  - assert (R := lor_range b x y B Rx Ry). intros [= <-]. exists (Z.lor x y).
    split; [f_equal; destruct Hb as [-> | ->]; [apply conv32|apply conv64]; assumption|auto].
  - assert (R := lxor_range b x y B Rx Ry). intros [= <-]. exists (Z.lxor x y).
    split; [f_equal; destruct Hb as [-> | ->]; [apply conv32|apply conv64]; assumption|auto].
Qed.

(** the same operator on operands that may have been printed with a wider type *)
Lemma int_wider o b x y z t u : b = 32 \/ b = 64 -> range b x -> range b y -> range b z -> zmean o b x y z ->
  (b = 32 -> o <> Shl) -> (t = s32 \/ t = s64) -> (u = s32 \/ u = s64) -> (b = 64 -> t = s64 /\ u = s64) ->
  exists t', int_op o t x u y = Ok (VI t' z) /\ (t' = s32 \/ t' = s64) /\ (b = 64 -> t' = s64).
Proof.
  intros Hb Rx Ry Rz M NS Ht Hu H64.
  destruct Hb as [-> | ->].
  2:{ destruct (H64 eq_refl) as [-> ->]. exists s64. split; [|auto].
      unfold int_op. change (common s64 s64) with s64. change (promote s64) with s64. rewrite !conv64 by assumption.
      destruct o; cbn [zmean] in M; try contradiction; cbn [fit s64];
      try (subst z; rewrite (proj2 (in_signed_iff 64 _)) by assumption; reflexivity).
      - destruct M as (N & NM & ->). destruct (Z.eqb_spec y 0); [contradiction|].
        destruct (_ && _) eqn:Q; [exfalso; apply NM; lia|reflexivity].
      - destruct M as (_ & N & E). fold s64. rewrite E. reflexivity.
      - destruct M as (_ & N & E). fold s64. rewrite E. reflexivity.
      - destruct M as (Hy & Hx & Hl & ->). fold s64. rewrite conv64 by assumption.
        destruct ((0 <=? y) && (y <? 64)) eqn:Q; cbn [negb]; [|lia].
        destruct (true && _) eqn:F; [cbn [andb] in F; lia|]. reflexivity.
      - destruct M as (Hy & ->). fold s64. rewrite conv64 by assumption.
        destruct ((0 <=? y) && (y <? 64)) eqn:Q; cbn [negb]; [|lia]. reflexivity.
      - subst z. fold s64. rewrite conv64 by assumption. reflexivity.
      - subst z. fold s64. rewrite conv64 by assumption. reflexivity.
      - subst z. fold s64. rewrite conv64 by assumption. reflexivity. }
  assert (Rx' := range_32_64 _ Rx). assert (Ry' := range_32_64 _ Ry). assert (Rz' := range_32_64 _ Rz).
  assert (C : exists c, common t u = CI true c /\ (c = 32 \/ c = 64) /\ forall v, range 32 v -> conv (CI true c) v = v /\ in_signed c v = true /\ range c v).
  { assert (A : forall c, c = 32 \/ c = 64 -> forall v, range 32 v -> conv (CI true c) v = v /\ in_signed c v = true /\ range c v).
    { intros c [-> | ->] v Hv; assert (Hv' := range_32_64 _ Hv).
      - split; [apply conv32, Hv|]. split; [apply in_signed_iff, Hv|exact Hv].
      - split; [apply conv64, Hv'|]. split; [apply in_signed_iff, Hv'|exact Hv']. }
    destruct Ht as [-> | ->], Hu as [-> | ->]; [exists 32|exists 64|exists 64|exists 64]; (split; [reflexivity|]); (split; [auto|]); apply A; auto. }
  destruct C as (c & C & Hc & A).
  assert (Pt : exists k, promote t = CI true k /\ (k = 32 \/ k = 64) /\ conv (CI true k) x = x /\ t = CI true k).
  { destruct Ht as [-> | ->]; [exists 32|exists 64]; (split; [reflexivity|]); (split; [auto|]); (split; [|reflexivity]).
    - apply conv32, Rx.
    - apply conv64, Rx'. }
  destruct Pt as (k & P & Hk & Ck & Tk).
  unfold int_op. rewrite C, P. destruct (A x Rx) as (-> & _ & _), (A y Ry) as (-> & _ & _).
  assert (Cc : CI true c = s32 \/ CI true c = s64) by (destruct Hc as [-> | ->]; auto).
  assert (Kc : CI true k = s32 \/ CI true k = s64) by (destruct Hk as [-> | ->]; auto).
  assert (N64 : forall t', (32 = 64 -> t' = s64)) by lia.
  destruct o; cbn [zmean] in M; try contradiction; cbn [fit].
  - subst z. destruct (A _ Rz) as (_ & -> & _). eexists; split; [reflexivity|auto].
  - subst z. destruct (A _ Rz) as (_ & -> & _). eexists; split; [reflexivity|auto].
  - subst z. destruct (A _ Rz) as (_ & -> & _). eexists; split; [reflexivity|auto].
  - destruct M as (N & NM & ->). destruct (Z.eqb_spec y 0); [contradiction|].
    destruct (_ && _) eqn:Q; [exfalso|eexists; split; [reflexivity|auto]].
    apply NM. split; [|lia]. unfold range in Rx. destruct Hc as [-> | ->]; [lia|]. change (64 - 1) with 63 in Q. change (32 - 1) with 31 in *. lia.
  - destruct M as (? & _). discriminate.
  - destruct M as (? & _). discriminate.
  - destruct (NS eq_refl eq_refl).
  - destruct M as (Hy & ->). rewrite Ck. destruct ((0 <=? y) && (y <? k)) eqn:Q; cbn [negb]; [|lia].
    eexists; split; [reflexivity|auto].
  - subst z. destruct (A _ Rz) as (-> & _ & _). eexists; split; [reflexivity|auto].
  - subst z. destruct (A _ Rz) as (-> & _ & _). eexists; split; [reflexivity|auto].
  - subst z. destruct (A _ Rz) as (-> & _ & _). eexists; split; [reflexivity|auto].
Qed.

(** ** Folding on integers *)
Lemma isint_pint e k : isint e k = match pint e with Some v => v =? k | None => false end.
Proof. destruct e; reflexivity. Qed.
Lemma isflt_pflt e k : isflt e k = match pflt e with Some v => SFeqb v k | None => false end.
Proof. destruct e; reflexivity. Qed.
Lemma pint_eq e z : pint e = Some z -> e = EInt (dt e) z.
Proof. destruct e; cbn; congruence. Qed.
Lemma pflt_eq e x : pflt e = Some x -> e = EFlt x.
Proof. destruct e; cbn; congruence. Qed.
Lemma pflt_none e : dt e <> DF64 -> pflt e = None.
Proof. destruct e; cbn; congruence. Qed.
Lemma pint_none e : lits e -> dt e = DF64 -> pint e = None.
Proof.
  intros L D. destruct (pint e) as [z|] eqn:E; [|reflexivity]. apply pint_eq in E. rewrite D in E.
  destruct (L _ _ E) as [[H _]|[[H|H] _]]; discriminate H.
Qed.
Lemma pint_lit_ok e z : lits e -> pint e = Some z -> lit_ok (dt e) z.
Proof. intros L E. apply pint_eq in E. apply L, E. Qed.
Lemma lit_ok_int b z : lit_ok (DInt b) z -> range 64 z.
Proof. intros [[H _]|[_ H]]; [discriminate H|exact H]. Qed.
Lemma lit_ok_64 d z : lit_ok d z -> range 64 z.
Proof. intros [[_ H]|[_ H]]; [|exact H]. unfold range. change (64 - 1) with 63. lia. Qed.

Definition agree (e : expr) (x : Z) : Prop := forall w, pint e = Some w -> w = x.
Definition zm (o : binop) (b x y z : Z) : Prop :=
  zmean o b x y z \/ (o = Min /\ z = Z.min x y) \/ (o = Max /\ z = Z.max x y).
Definition int_opb (o : binop) : bool := match o with Min | Max => true | _ => arith_op o end.

Definition outcome (o : binop) (b : Z) (a c e : expr) : Prop :=
  e = EBin o a c \/
  (e = a /\ forall x y z, agree a x -> agree c y -> (a = c -> x = y) -> range b x -> range b y -> zm o b x y z -> z = x) \/
  (e = c /\ forall x y z, agree a x -> agree c y -> (a = c -> x = y) -> range b x -> range b y -> zm o b x y z -> z = y) \/
  (exists w, e = EInt (DInt b) w /\ range 64 w /\
     forall x y z, agree a x -> agree c y -> (a = c -> x = y) -> range b x -> range b y -> zm o b x y z -> z = w).

Lemma chk64_inv v w : chk64 v = Ok w -> w = v /\ range 64 v.
Proof.
  unfold chk64. destruct (int64b v) eqn:E; [|discriminate]. intros [= <-]. split; [reflexivity|].
  unfold int64b, two63 in E. unfold range. change (64 - 1) with 63. lia.
Qed.

Ltac zmd H := destruct H as [H|[[H _]|[H _]]]; [cbn [zmean] in H|discriminate H|discriminate H].

Lemma fold_int_spec same o b a c r : (forall u v, same u v = true -> u = v) ->
  b = 32 \/ b = 64 -> int_opb o = true -> (b = 32 -> o <> Shl) ->
  dt a = DInt b -> dt c = DInt b -> lits a -> lits c ->
  fold same o a c = Ok r -> outcome o b a c (or_node o a c r).
Proof.
  intros HS Hb Ho NS Da Dc La Lc.
  assert (Fa : pflt a = None) by (apply pflt_none; rewrite Da; discriminate).
  assert (Fc : pflt c = None) by (apply pflt_none; rewrite Dc; discriminate).
  assert (Ra : forall z, pint a = Some z -> range 64 z).
  { intros z E. apply (lit_ok_64 (dt a)), pint_lit_ok; assumption. }
  assert (Rc : forall z, pint c = Some z -> range 64 z).
  { intros z E. apply (lit_ok_64 (dt c)), pint_lit_ok; assumption. }
  assert (IX : is_index (DInt b) = true) by (destruct Hb as [-> | ->]; reflexivity).
  destruct o; try discriminate Ho; cbn [fold].
  - (* Add *)
    unfold fold_add. rewrite !isint_pint, !isflt_pflt, Fa, Fc, Da.
    destruct (pint a) as [u|] eqn:Pa, (pint c) as [v|] eqn:Pc.
    + destruct (chk64 (u + v)) as [w| | |] eqn:E; cbn; try discriminate. intros [= <-]. cbn.
      apply chk64_inv in E. destruct E as [-> R]. right; right; right. exists (u + v).
      split; [reflexivity|]. split; [assumption|]. intros x y z A B _ _ _ M. zmd M. rewrite M, (A u Pa), (B v Pc). reflexivity.
    + destruct (Z.eqb_spec u 0) as [->|]; intros [= <-]; [|left; reflexivity]. right; right; left. split; [reflexivity|].
      intros x y z A B _ _ _ M. zmd M. rewrite <- (A 0 Pa) in M. lia.
    + destruct (Z.eqb_spec v 0) as [->|]; intros [= <-]; [|left; reflexivity]. right; left. split; [reflexivity|].
      intros x y z A B _ _ _ M. zmd M. rewrite <- (B 0 Pc) in M. lia.
    + intros [= <-]. left; reflexivity.
  - (* Sub *)
    unfold fold_sub. rewrite !isint_pint, !isflt_pflt, Fa, Fc, Da.
    destruct (pint a) as [u|] eqn:Pa, (pint c) as [v|] eqn:Pc.
    + destruct (chk64 (u - v)) as [w| | |] eqn:E; cbn; try discriminate. intros [= <-]. cbn.
      apply chk64_inv in E. destruct E as [-> R]. right; right; right. exists (u - v).
      split; [reflexivity|]. split; [assumption|]. intros x y z A B _ _ _ M. zmd M. rewrite M, (A u Pa), (B v Pc). reflexivity.
    + intros [= <-]. left; reflexivity.
    + destruct (Z.eqb_spec v 0) as [->|]; intros [= <-]; [|left; reflexivity]. right; left. split; [reflexivity|].
      intros x y z A B _ _ _ M. zmd M. rewrite <- (B 0 Pc) in M. lia.
    + intros [= <-]. left; reflexivity.
  - (* Mul *)
    unfold fold_mul. rewrite !isint_pint, !isflt_pflt, Fa, Fc, Da.
    destruct (pint a) as [u|] eqn:Pa, (pint c) as [v|] eqn:Pc.
    + destruct (chk64 (u * v)) as [w| | |] eqn:E; cbn; try discriminate. intros [= <-]. cbn.
      apply chk64_inv in E. destruct E as [-> R]. right; right; right. exists (u * v).
      split; [reflexivity|]. split; [assumption|]. intros x y z A B _ _ _ M. zmd M. rewrite M, (A u Pa), (B v Pc). reflexivity.
    + destruct (Z.eqb_spec u 1) as [->|].
      { intros [= <-]. right; right; left. split; [reflexivity|]. intros x y z A B _ _ _ M. zmd M. rewrite <- (A 1 Pa) in M. lia. }
      destruct (Z.eqb_spec u 0) as [->|]; intros [= <-]; [|left; reflexivity]. right; left. split; [reflexivity|].
      intros x y z A B _ _ _ M. zmd M. rewrite <- (A 0 Pa) in *. lia.
    + destruct (Z.eqb_spec v 1) as [->|].
      { intros [= <-]. right; left. split; [reflexivity|]. intros x y z A B _ _ _ M. zmd M. rewrite <- (B 1 Pc) in M. lia. }
      destruct (Z.eqb_spec v 0) as [->|]; intros [= <-]; [|left; reflexivity]. right; right; left. split; [reflexivity|].
      intros x y z A B _ _ _ M. zmd M. rewrite <- (B 0 Pc) in *. lia.
    + intros [= <-]. left; reflexivity.
  - (* Mod *)
    unfold fold_mod. rewrite !isint_pint, Da, Dc, IX. cbn [andb].
    destruct (pint a) as [u|] eqn:Pa, (pint c) as [v|] eqn:Pc.
    + destruct (Z.eqb_spec v 0); [discriminate|]. unfold crem64.
      destruct (Z.eqb_spec v 0); [lia|]. destruct (_ && _) eqn:Q; [discriminate|]. cbn. intros [= <-]. cbn.
      right; right; right. exists (Z.rem u v). split; [reflexivity|].
      split. { apply rem_range; [assumption| |apply Ra; reflexivity]. intros [Q1 Q2]. unfold two63 in Q. change (64 - 1) with 63 in Q1. lia. }
      intros x y z A B _ _ _ M. zmd M. rewrite <- (A u Pa), <- (B v Pc) in M. tauto.
    + destruct (Z.eqb_spec u 0) as [->|]; intros [= <-]; [|left; reflexivity]. right; left. split; [reflexivity|].
      intros x y z A B _ _ _ M. zmd M. rewrite <- (A 0 Pa) in *. destruct M as (N & _ & ->). apply Z.rem_0_l, N.
    + destruct (Z.eqb_spec v 1) as [->|].
      { intros [= <-]. right; right; right. exists 0. split; [reflexivity|]. split; [unfold range; change (64 - 1) with 63; lia|].
        intros x y z A B _ _ _ M. zmd M. rewrite <- (B 1 Pc) in M. destruct M as (_ & _ & ->). apply Z.rem_1_r. }
      destruct (Z.eqb_spec v 0); [discriminate|]. intros [= <-]. left; reflexivity.
    + intros [= <-]. left; reflexivity.
  - (* FloorDiv *)
    unfold fold_floordiv. rewrite !isint_pint, !isflt_pflt, Fa, Fc, Da, Dc. cbn [is_int].
    destruct (pint a) as [u|] eqn:Pa, (pint c) as [v|] eqn:Pc.
    + destruct (Z.eqb_spec v 0); [discriminate|].
      destruct (fast_floor_div_i64_i64 u v) as [w| | |] eqn:E; cbn; try discriminate. intros [= <-]. cbn.
      right; right; right. exists w. split; [reflexivity|]. split; [apply floor_div_range with u v; auto|].
      intros x y z A B _ _ _ M. zmd M. rewrite <- (A u Pa), <- (B v Pc) in M. destruct M as (_ & _ & M). congruence.
    + destruct (Z.eqb_spec u 0) as [->|]; intros [= <-]; [|left; reflexivity]. right; left. split; [reflexivity|].
      intros x y z A B _ _ _ M. zmd M. rewrite <- (A 0 Pa) in *. destruct M as (_ & N & M).
      unfold fast_floor_div_i64_i64 in M. destruct (Z.eqb_spec y 0); [contradiction|]. cbn in M. congruence.
    + destruct (Z.eqb_spec v 0); [discriminate|]. intros [= <-]. left; reflexivity.
    + intros [= <-]. left; reflexivity.
  - (* FloorMod *)
    unfold fold_floormod. rewrite !isint_pint, Da, Dc, IX. cbn [andb is_int].
    destruct (pint a) as [u|] eqn:Pa, (pint c) as [v|] eqn:Pc.
    + destruct (Z.eqb_spec v 0); [discriminate|].
      destruct (fast_mod_i64_i64 u v) as [w| | |] eqn:E; cbn; try discriminate. intros [= <-]. cbn.
      right; right; right. exists w. split; [reflexivity|]. split; [apply floor_mod_range with u v; auto|].
      intros x y z A B _ _ _ M. zmd M. rewrite <- (A u Pa), <- (B v Pc) in M. destruct M as (_ & _ & M). congruence.
    + destruct (Z.eqb_spec u 0) as [->|]; intros [= <-]; [|left; reflexivity]. right; left. split; [reflexivity|].
      intros x y z A B _ _ _ M. zmd M. rewrite <- (A 0 Pa) in *. destruct M as (_ & N & M).
      unfold fast_mod_i64_i64 in M. destruct (Z.eqb_spec y 0); [contradiction|]. cbn in M. congruence.
    + destruct (Z.eqb_spec v 1) as [->|].
      { intros [= <-]. right; right; right. exists 0. split; [reflexivity|]. split; [unfold range; change (64 - 1) with 63; lia|].
        intros x y z A B EQ Rx Ry M. zmd M. rewrite <- (B 1 Pc) in *. destruct M as (-> & N & M).
        rewrite mod_i64 in M by assumption. injection M as <-. apply Z.mod_1_r. }
      destruct (Z.eqb_spec v 0); [discriminate|]. intros [= <-]. left; reflexivity.
    + intros [= <-]. left; reflexivity.
  - (* Min *)
    unfold fold_min. rewrite Fa, Da.
    assert (SM : forall r0 : option expr, (if same a c then Ok (Some a) else Ok None) = Ok r0 -> outcome Min b a c (or_node Min a c r0)).
    { intros r0. destruct (same a c) eqn:E; intros [= <-]; [|left; reflexivity]. apply HS in E.
      right; left. split; [reflexivity|]. intros x y z A B EQ Rx Ry M. specialize (EQ E).
      destruct M as [M|[[_ M]|[M _]]]; [contradiction M|lia|discriminate M]. }
    destruct (pint a) as [u|] eqn:Pa, (pint c) as [v|] eqn:Pc; try apply SM.
    cbn. intros [= <-]. cbn. right; right; right. eexists. split; [reflexivity|]. specialize (Ra u eq_refl). specialize (Rc v eq_refl).
    split; [destruct (v <? u); assumption|]. intros x y z A B _ _ _ M. rewrite (A u Pa), (B v Pc) in *.
    destruct M as [M|[[_ M]|[M _]]]; [contradiction M| |discriminate M]. destruct (Z.ltb_spec y x); lia.
  - (* Max *)
    unfold fold_max. rewrite Fa, Da.
    assert (SM : forall r0 : option expr, (if same a c then Ok (Some a) else Ok None) = Ok r0 -> outcome Max b a c (or_node Max a c r0)).
    { intros r0. destruct (same a c) eqn:E; intros [= <-]; [|left; reflexivity]. apply HS in E.
      right; left. split; [reflexivity|]. intros x y z A B EQ Rx Ry M. specialize (EQ E).
      destruct M as [M|[[M _]|[_ M]]]; [contradiction M|discriminate M|lia]. }
    destruct (pint a) as [u|] eqn:Pa, (pint c) as [v|] eqn:Pc; try apply SM.
    cbn. intros [= <-]. cbn. right; right; right. eexists. split; [reflexivity|]. specialize (Ra u eq_refl). specialize (Rc v eq_refl).
    split; [destruct (u <? v); assumption|]. intros x y z A B _ _ _ M. rewrite (A u Pa), (B v Pc) in *.
    destruct M as [M|[[M _]|[_ M]]]; [contradiction M|discriminate M|]. destruct (Z.ltb_spec x y); lia.
  - (* Shl *)
    unfold fold_bit. rewrite Da, Dc, IX. cbn [andb dbits].
    destruct Hb as [-> | ->]; [destruct (NS eq_refl eq_refl)|].
    destruct (pint c) as [v|] eqn:Pc; [|intros [= <-]; left; reflexivity].
    destruct ((0 <=? v) && (v <? 64)) eqn:Hv; cbn [negb]; [|discriminate].
    destruct (pint a) as [u|] eqn:Pa.
    + unfold shl64. destruct (_ || _) eqn:Q; [discriminate|]. cbn. intros [= <-]. cbn.
      right; right; right. eexists. split; [reflexivity|]. split; [apply wraps64_range|].
      intros x y z A B _ _ _ M. zmd M. rewrite <- (A u Pa), <- (B v Pc) in M. destruct M as (_ & _ & _ & ->). reflexivity.
    + destruct (Z.eqb_spec v 0) as [->|]; intros [= <-]; [|left; reflexivity]. right; left. split; [reflexivity|].
      intros x y z A B _ Rx _ M. zmd M. rewrite <- (B 0 Pc) in M. destruct M as (_ & _ & _ & ->). rewrite Z.mul_1_r. apply conv64, Rx.
  - (* Shr *)
    unfold fold_bit. rewrite Da, Dc, IX. cbn [andb dbits].
    destruct (pint c) as [v|] eqn:Pc; [|intros [= <-]; left; reflexivity].
    destruct ((0 <=? v) && (v <? b)) eqn:Hv; cbn [negb]; [|discriminate].
    destruct (pint a) as [u|] eqn:Pa.
    + cbn. intros [= <-]. cbn.
      right; right; right. eexists. split; [reflexivity|]. split; [apply shr_range; [lia|lia|apply Ra; reflexivity]|].
      intros x y z A B _ _ _ M. zmd M. rewrite <- (A u Pa), <- (B v Pc) in M. destruct M as (_ & ->). reflexivity.
    + destruct (Z.eqb_spec v 0) as [->|]; intros [= <-]; [|left; reflexivity]. right; left. split; [reflexivity|].
      intros x y z A B _ Rx _ M. zmd M. rewrite <- (B 0 Pc) in M. destruct M as (_ & ->). reflexivity.
  - (* BAnd *)
    unfold fold_bit. rewrite Da, Dc, IX. cbn [andb].
    destruct (pint a) as [u|] eqn:Pa, (pint c) as [v|] eqn:Pc; try (intros [= <-]; left; reflexivity).
    cbn. intros [= <-]. cbn. right; right; right. eexists. split; [reflexivity|].
    split; [apply land_range; [lia|apply Ra; reflexivity|apply Rc; reflexivity]|].
    intros x y z A B _ _ _ M. zmd M. rewrite <- (A u Pa), <- (B v Pc) in M. exact M.
  - (* BOr *)
    unfold fold_bit. rewrite Da, Dc, IX. cbn [andb].
    destruct (pint a) as [u|] eqn:Pa, (pint c) as [v|] eqn:Pc; try (intros [= <-]; left; reflexivity).
    cbn. intros [= <-]. cbn. right; right; right. eexists. split; [reflexivity|].
    split; [apply lor_range; [lia|apply Ra; reflexivity|apply Rc; reflexivity]|].
    intros x y z A B _ _ _ M. zmd M. rewrite <- (A u Pa), <- (B v Pc) in M. exact M.
  - (* BXor *)
    unfold fold_bit. rewrite Da, Dc, IX. cbn [andb].
    destruct (pint a) as [u|] eqn:Pa, (pint c) as [v|] eqn:Pc; try (intros [= <-]; left; reflexivity).
    cbn. intros [= <-]. cbn. right; right; right. eexists. split; [reflexivity|].
    split; [apply lxor_range; [lia|apply Ra; reflexivity|apply Rc; reflexivity]|].
    intros x y z A B _ _ _ M. zmd M. rewrite <- (A u Pa), <- (B v Pc) in M. exact M.
Qed.

Lemma lit_rel b z : b = 32 \/ b = 64 -> range b z -> rel (DInt b) (VI (CI true b) z) (DInt b) (lit (DInt b) z).
Proof.
  intros Hb R. assert (L : lit_ok (DInt b) z).
  { right. split; [destruct Hb as [-> | ->]; auto|]. destruct Hb as [-> | ->]; [apply range_32_64, R|exact R]. }
  destruct (lit_val _ _ L) as (t & -> & H). destruct Hb as [-> | ->].
  - destruct H as [[H _]|[(_ & H & _)|[H _]]]; try discriminate H. constructor; assumption.
  - destruct H as [[H _]|[(H & _)|[_ ->]]]; try discriminate H. constructor; assumption.
Qed.

Lemma rel_int_inv b v v' : b = 32 \/ b = 64 -> rel (DInt b) v (DInt b) v' ->
  exists x t, v = VI (CI true b) x /\ range b x /\ v' = VI t x /\ (t = s32 \/ t = s64) /\ (b = 64 -> t = s64).
Proof.
  intros Hb H. inversion H; subst.
  - exists z, t. repeat (split; [solve [auto]|]). intros E. discriminate E.
  - exists z, s64. repeat (split; [solve [auto]|]). auto.
Qed.
Lemma rel_int b x t : b = 32 \/ b = 64 -> range b x -> t = s32 \/ t = s64 -> (b = 64 -> t = s64) ->
  rel (DInt b) (VI (CI true b) x) (DInt b) (VI t x).
Proof. intros [-> | ->] R T T64; [constructor; assumption|]. rewrite (T64 eq_refl). constructor. assumption. Qed.

Lemma near_int b d : near (DInt b) d -> d = DInt b.
Proof. intros [H|[H _]]; [exact H|discriminate H]. Qed.
Lemma near_flt d : near DF64 d -> d = DF64.
Proof. intros [H|[H _]]; [exact H|discriminate H]. Qed.

Lemma sim_int_inv env b P a v : b = 32 \/ b = 64 -> sim env (DInt b) P a -> eval env P = Ok v ->
  exists x t, v = VI (CI true b) x /\ range b x /\ eval env a = Ok (VI t x) /\
              (t = s32 \/ t = s64) /\ (b = 64 -> t = s64) /\ agree a x.
Proof.
  intros Hb (N & L & S) E. apply near_int in N. destruct (S v E) as (v' & E' & R). rewrite N in R.
  destruct (rel_int_inv b v v' Hb R) as (x & t & -> & Rx & -> & T & T64). exists x, t.
  repeat (split; [solve [auto]|]). intros w P'. pose proof (pint_lit_ok _ _ L P') as K. apply pint_eq in P'.
  rewrite P' in E'. cbn in E'. destruct (lit_val _ _ K) as (u & K' & _). rewrite K' in E'. congruence.
Qed.

Lemma eval_bin env o P Q v : o <> And -> o <> Or -> o <> Min -> o <> Max ->
  eval env (EBin o P Q) = Ok v <->
  exists p q, eval env P = Ok p /\ eval env Q = Ok q /\ bin_op o p q = Ok v.
Proof.
  intros N1 N2 N3 N4.
  assert (E : eval env (EBin o P Q) = (let! p := eval env P in let! q := eval env Q in bin_op o p q)).
  { destruct o; try reflexivity; congruence. }
  rewrite E. destruct (eval env P) as [p| | |]; cbn; [|split; [discriminate|intros (?&?&?&?); discriminate]..].
  destruct (eval env Q) as [q| | |]; cbn; [|split; [discriminate|intros (?&?&?&?&?); discriminate]..].
  split; [intros H; exists p, q; auto|]. intros (p' & q' & [= ->] & [= ->] & H). exact H.
Qed.
Lemma eval_minmax env o P Q v : o = Min \/ o = Max ->
  eval env (EBin o P Q) = Ok v <->
  exists p p' q q', eval env P = Ok p /\ cast_val (dt P) p = Ok p' /\ eval env Q = Ok q /\
                    cast_val (dt Q) q = Ok q' /\ minmax o p' q' = Ok v.
Proof.
  intros Ho.
  assert (E : eval env (EBin o P Q) = (let! p := eval env P in let! p' := cast_val (dt P) p in
     let! q := eval env Q in let! q' := cast_val (dt Q) q in minmax o p' q')).
  { destruct Ho as [-> | ->]; reflexivity. }
  rewrite E. clear E.
  destruct (eval env P) as [p| | |]; cbn; [|split; [discriminate|intros (?&?&?&?&?&?); discriminate]..].
  destruct (cast_val (dt P) p) as [p'| | |] eqn:Cp; cbn; [|split; [discriminate|intros (?&?&?&?&[= <-]&?&?); congruence]..].
  destruct (eval env Q) as [q| | |]; cbn; [|split; [discriminate|intros (?&?&?&?&?&?&?&?); discriminate]..].
  destruct (cast_val (dt Q) q) as [q'| | |] eqn:Cq; cbn; [|split; [discriminate|intros (?&?&?&?&_&_&[= <-]&?&?); congruence]..].
  split; [intros H; exists p, p', q, q'; auto|].
  intros (p1 & p2 & q1 & q2 & [= <-] & E1 & [= <-] & E2 & H). congruence.
Qed.

Lemma int_sim_bin o : arith_op o = true -> o <> And /\ o <> Or /\ o <> Min /\ o <> Max.
Proof. destruct o; cbn; intros H; try discriminate H; repeat split; discriminate. Qed.

Lemma conv_id b x : b = 32 \/ b = 64 -> range b x -> conv (CI true b) x = x.
Proof. intros [-> | ->]; [apply conv32|apply conv64]. Qed.
Lemma cast_int b t x : b = 32 \/ b = 64 -> range b x -> cast_val (DInt b) (VI t x) = Ok (VI (CI true b) x).
Proof. intros Hb R. cbn [cast_val ctype]. rewrite conv_id by assumption. reflexivity. Qed.

Lemma minmax_int o b x y : b = 32 \/ b = 64 -> range b x -> range b y -> o = Min \/ o = Max ->
  minmax o (VI (CI true b) x) (VI (CI true b) y) =
  Ok (VI (CI true b) (match o with Min => Z.min x y | _ => Z.max x y end)).
Proof.
  intros Hb Rx Ry Ho. unfold minmax. cbn [bin_op].
  assert (C : common (CI true b) (CI true b) = CI true b) by (destruct Hb as [-> | ->]; reflexivity).
  destruct Ho as [-> | ->]; unfold int_op; rewrite C, !conv_id by assumption; cbn [bind zcmp vbool truthy].
  - destruct (Z.ltb_spec x y); cbn; do 2 f_equal; lia.
  - destruct (Z.ltb_spec y x); cbn; do 2 f_equal; lia.
Qed.

Lemma fold_int_sim env same o b P Q a c r : (forall u v, same u v = true -> u = v) ->
  b = 32 \/ b = 64 -> int_opb o = true -> (b = 32 -> o <> Shl) ->
  dt P = DInt b -> dt Q = DInt b ->
  sim env (DInt b) P a -> sim env (DInt b) Q c ->
  fold same o a c = Ok r -> sim env (DInt b) (EBin o P Q) (or_node o a c r).
Proof.
  intros HS Hb Ho NS DP DQ Sa Sc HF. pose proof Sa as (Na & La & _). pose proof Sc as (Nc & Lc & _).
  apply near_int in Na, Nc.
  assert (X := fold_int_spec same o b a c r HS Hb Ho NS Na Nc La Lc HF).
  assert (ST : dt (or_node o a c r) = DInt b /\ lits (or_node o a c r)).
  { destruct X as [-> |[[-> _]|[[-> _]|(w & -> & R & _)]]].
    - split; [|discriminate]. destruct o; try discriminate Ho; cbn; assumption.
    - auto.
    - auto.
    - split; [reflexivity|]. intros d z [= <- <-]. right. split; [destruct Hb as [-> | ->]; auto|exact R]. }
  destruct ST as [D L]. split; [left; exact D|]. split; [exact L|]. intros v E. rewrite D.
  (* the meaning of the unfolded operation *)
  assert (M : exists p q x y z t u, eval env P = Ok p /\ eval env Q = Ok q /\ range b x /\ range b y /\ range b z /\
     v = VI (CI true b) z /\ eval env a = Ok (VI t x) /\ eval env c = Ok (VI u y) /\
     (t = s32 \/ t = s64) /\ (u = s32 \/ u = s64) /\ (b = 64 -> t = s64 /\ u = s64) /\
     agree a x /\ agree c y /\ zm o b x y z).
  { destruct (arith_op o) eqn:Ao.
    - destruct (int_sim_bin o Ao) as (N1 & N2 & N3 & N4).
      apply eval_bin in E; try assumption. destruct E as (p & q & Ep & Eq & E).
      destruct (sim_int_inv env b P a p Hb Sa Ep) as (x & t & -> & Rx & Ea & T & T64 & Ga).
      destruct (sim_int_inv env b Q c q Hb Sc Eq) as (y & u & -> & Ry & Ec & U & U64 & Gc).
      cbn [bin_op] in E. destruct (int_ref o b x y v Hb Rx Ry Ao E) as (z & -> & Rz & M).
      exists (VI (CI true b) x), (VI (CI true b) y), x, y, z, t, u. repeat (split; [solve [auto]|]). left. exact M.
    - assert (Ho' : o = Min \/ o = Max) by (destruct o; try discriminate Ho; auto; discriminate Ao).
      apply eval_minmax in E; [|assumption]. destruct E as (p & p' & q & q' & Ep & Cp & Eq & Cq & E).
      destruct (sim_int_inv env b P a p Hb Sa Ep) as (x & t & -> & Rx & Ea & T & T64 & Ga).
      destruct (sim_int_inv env b Q c q Hb Sc Eq) as (y & u & -> & Ry & Ec & U & U64 & Gc).
      rewrite DP, cast_int in Cp by assumption. rewrite DQ, cast_int in Cq by assumption.
      injection Cp as <-. injection Cq as <-. rewrite minmax_int in E by assumption. injection E as <-.
      exists (VI (CI true b) x), (VI (CI true b) y), x, y, (match o with Min => Z.min x y | _ => Z.max x y end), t, u.
      repeat (split; [solve [auto]|]).
      split. { unfold range in *. destruct Ho' as [-> | ->]; lia. }
      repeat (split; [solve [auto]|]). destruct Ho' as [-> | ->]; [right; left|right; right]; auto. }
  destruct M as (p & q & x & y & z & t & u & Ep & Eq & Rx & Ry & Rz & -> & Ea & Ec & T & U & TU & Ga & Gc & M).
  assert (EQ : a = c -> x = y) by (intros ->; congruence).
  destruct X as [-> |[[-> K]|[[-> K]|(w & -> & R & K)]]].
  - destruct M as [M|M].
    + assert (Ao : arith_op o = true) by (destruct o; cbn in M; try contradiction M; reflexivity).
      destruct (int_sim_bin o Ao) as (N1 & N2 & N3 & N4).
      destruct (int_wider o b x y z t u Hb Rx Ry Rz M NS T U TU) as (t' & I & T' & T64').
      exists (VI t' z). split; [|apply rel_int; assumption].
      apply eval_bin; try assumption. exists (VI t x), (VI u y). auto.
    + assert (Ho' : o = Min \/ o = Max) by (destruct M as [[M _]|[M _]]; auto).
      exists (VI (CI true b) z). split.
      2:{ apply rel_int; try assumption; [destruct Hb as [-> | ->]; auto|]. intros ->. reflexivity. }
      apply eval_minmax; [assumption|]. exists (VI t x), (VI (CI true b) x), (VI u y), (VI (CI true b) y).
      split; [assumption|]. split; [rewrite Na; apply cast_int; assumption|]. split; [assumption|].
      split; [rewrite Nc; apply cast_int; assumption|]. rewrite minmax_int by assumption.
      destruct M as [[-> ->]|[-> ->]]; reflexivity.
  - rewrite (K x y z Ga Gc EQ Rx Ry M). exists (VI t x). split; [assumption|]. apply rel_int; try assumption. apply TU.
  - rewrite (K x y z Ga Gc EQ Rx Ry M). exists (VI u y). split; [assumption|]. apply rel_int; try assumption. apply TU.
  - assert (z = w) as -> by (apply (K x y z Ga Gc EQ Rx Ry M)). eexists. split; [reflexivity|]. apply lit_rel; assumption.
Qed.
(** ** Conversions *)
Definition widens (d t : dtype) : Prop :=
  d = t \/ (d = DBool /\ (t = DInt 32 \/ t = DInt 64 \/ t = DF64)) \/
  (d = DInt 32 /\ (t = DInt 64 \/ t = DF64)) \/ (d = DInt 64 /\ t = DF64).

Lemma dtype_eqb_eq a b : dtype_eqb a b = true <-> a = b.
Proof.
  destruct a, b; cbn; try (split; congruence).
  - rewrite Z.eqb_eq. split; congruence.
  - rewrite Z.eqb_eq. split; congruence.
Qed.
Lemma dtype_eqb_refl a : dtype_eqb a a = true. Proof. apply dtype_eqb_eq. reflexivity. Qed.
Lemma dtype_eqb_ne a b : a <> b -> dtype_eqb a b = false.
Proof. intros H. destruct (dtype_eqb a b) eqn:E; [|reflexivity]. apply dtype_eqb_eq in E. contradiction. Qed.
Lemma dt_to t e : dt (to t e) = t.
Proof. unfold to. destruct (dtype_eqb (dt e) t) eqn:E; [apply dtype_eqb_eq, E|reflexivity]. Qed.

(** the value of a widened operand *)
Lemma rel_widen d t v d' v' : rel d v d' v' -> widens d t -> d <> t -> d' <> t ->
  exists w w', cast_val t v = Ok w /\ cast_val t v' = Ok w' /\ rel t w t w'.
Proof.
  assert (B32 : forall z, z = 0 \/ z = 1 -> range 32 z) by (unfold range; change (32 - 1) with 31; lia).
  intros R [W|[[-> W]|[[-> W]|[-> W]]]] N N'; [contradiction| | |].
  - assert (X : exists z, (z = 0 \/ z = 1) /\ v = VI CBool z /\ (v' = VI CBool z \/ v' = VI s32 z)).
    { inversion R; subst; exists z; auto. }
    clear R. destruct X as (z & Z01 & -> & V').
    assert (R32 := B32 z Z01). assert (R64 := range_32_64 _ R32).
    destruct W as [-> |[-> | ->]].
    + exists (VI s32 z), (VI s32 z). destruct V' as [-> | ->]; cbn [cast_val ctype]; fold s32; rewrite (conv32 z R32); repeat (split; [reflexivity|]); constructor; auto.
    + exists (VI s64 z), (VI s64 z). destruct V' as [-> | ->]; cbn [cast_val ctype]; fold s64; rewrite (conv64 z R64); repeat (split; [reflexivity|]); constructor; auto.
    + exists (VF (of_int z)), (VF (of_int z)). destruct V' as [-> | ->]; cbn [cast_val to_double]; repeat (split; [reflexivity|]); constructor; auto using of_int_finite, feq_refl.
  - inversion R; subst.
    assert (R64 := range_32_64 _ H).
    destruct W as [-> | ->].
    + exists (VI s64 z), (VI s64 z). cbn [cast_val ctype]. fold s64. rewrite (conv64 z R64). repeat (split; [reflexivity|]). constructor; auto.
    + exists (VF (of_int z)), (VF (of_int z)). cbn [cast_val to_double]. repeat (split; [reflexivity|]). constructor; auto using of_int_finite, feq_refl.
  - subst t. inversion R; subst.
    exists (VF (of_int z)), (VF (of_int z)). cbn [cast_val to_double]. repeat (split; [reflexivity|]). constructor; auto using of_int_finite, feq_refl.
Qed.

Lemma eval_to env t p : eval env (to t p) =
  let! v := eval env p in if dtype_eqb (dt p) t then Ok v else cast_val t v.
Proof.
  unfold to. destruct (dtype_eqb (dt p) t) eqn:E; cbn; rewrite ?E; [|reflexivity]. destruct (eval env p); reflexivity.
Qed.

Lemma conv_sim env d t p e e' : dt p = d -> sim env d p e -> widens d t -> std_type d -> t <> DBool ->
  (e' = e /\ dt e = t) \/ cast t e = Ok e' \/ e' = simple_cast t e ->
  sim env t (to t p) e' /\ dt e' = t.
Proof.
  intros Dp (N & L & S) W St Nt H.
  (* the cases: nothing to do, a constant converted at compile time, a conversion at run time *)
  assert (C : (e' = e /\ dt e = t) \/ (dt e <> t /\ exists d0 z, e = EInt d0 z /\ make_const t z = Ok e') \/ (dt e <> t /\ e' = ECast t e)).
  { destruct (dtype_eqb (dt e) t) eqn:E.
    - left. destruct H as [H|[H|H]]; [exact H| |].
      + unfold cast in H. rewrite E in H. injection H as <-. split; [reflexivity|apply dtype_eqb_eq, E].
      + unfold simple_cast in H. rewrite E in H. split; [exact H|apply dtype_eqb_eq, E].
    - assert (NE : dt e <> t) by (intros K; apply dtype_eqb_eq in K; congruence). right.
      destruct H as [[_ H]|[H|H]]; [contradiction| |].
      + unfold cast in H. rewrite E in H. destruct e; try (right; split; [assumption|congruence]).
        * left. split; [assumption|]. exists d0, v. auto.
        * exfalso. cbn in N. destruct N as [N|[_ N]]; [|discriminate N]. rewrite <- N in W.
          destruct W as [W|[[W _]|[[W _]|[W _]]]]; try discriminate W. cbn in NE. congruence.
      + unfold simple_cast in H. rewrite E in H. auto. }
  clear H. destruct C as [[-> De]|[(NE & d0 & z & -> & M)|(NE & ->)]].
  - split; [|exact De]. split; [left; exact De|]. split; [exact L|]. intros v. rewrite eval_to.
    destruct (eval env p) as [v0| | |] eqn:E0; cbn [bind]; try discriminate.
    destruct (S v0 eq_refl) as (v' & E' & R). destruct (dtype_eqb (dt p) t) eqn:E; intros V.
    + injection V as <-. apply dtype_eqb_eq in E. exists v'. split; [assumption|]. congruence.
    + exists v'. split; [assumption|]. rewrite De in *.
      assert (d <> t) by (rewrite <- Dp; intros K; apply dtype_eqb_eq in K; congruence).
      destruct N as [N|[-> N]]; [congruence|]. subst t. inversion R; subst. cbn [cast_val ctype] in V. fold s32 in V.
      rewrite conv32 in V by (unfold range; change (32 - 1) with 31; lia). injection V as <-. constructor; [|auto].
      unfold range; change (32 - 1) with 31; lia.
  - cbn [dt] in NE. assert (Lz : lit_ok d0 z) by (apply L; reflexivity).
    destruct (lit_val _ _ Lz) as (tz & Ez & Kz). cbn [dt] in N.
    assert (Nd : d <> t) by (intros ->; destruct N as [N|[N _]]; contradiction).
    assert (V : forall v, eval env (to t p) = Ok v -> exists v0, eval env p = Ok v0 /\ cast_val t v0 = Ok v /\ rel d v0 d0 (VI tz z)).
    { intros v. rewrite eval_to, (dtype_eqb_ne (dt p) t) by congruence.
      destruct (eval env p) as [v0| | |] eqn:E0; cbn [bind]; try discriminate. intros V. exists v0.
      split; [reflexivity|]. split; [exact V|]. destruct (S v0 eq_refl) as (v' & E' & R). cbn in E', R. congruence. }
    assert (T : (t = DF64 /\ e' = EFlt (of_int z)) \/ ((t = DInt 32 \/ t = DInt 64) /\ e' = EInt t z)).
    { destruct W as [W|[[_ [-> |[-> | ->]]]|[[_ [-> | ->]]|[_ ->]]]]; try contradiction; cbn in M; injection M as <-; auto. }
    assert (R64 := lit_ok_64 _ _ Lz).
    destruct T as [[-> ->]|[T ->]].
    + split; [|reflexivity]. split; [left; reflexivity|]. split; [discriminate|]. intros v E.
      destruct (V v E) as (v0 & _ & C & R). exists (VF (of_int z)).
      assert (F := of_int_finite z R64). split; [cbn; apply flit_finite, F|].
      assert (v = VF (of_int z)) as ->.
      { inversion R; subst; cbn in C; congruence. }
      constructor; auto using feq_refl.
    + split; [|reflexivity]. split; [left; reflexivity|]. split.
      { intros d1 z1 [= <- <-]. right. split; [assumption|exact R64]. }
      intros v E. destruct (V v E) as (v0 & _ & C & R). exists (lit t z). split; [reflexivity|]. cbn [dt].
      assert (Q : v = VI (ctype t) z /\ range (dbits t) z).
      { assert (B32 : forall x, x = 0 \/ x = 1 -> range 32 x) by (unfold range; change (32 - 1) with 31; lia).
        clear Dp V S E. inversion R; subst.
        - destruct T as [-> | ->]; cbn [cast_val ctype dbits] in *; fold s32 s64 in *; assert (Rx := B32 z ltac:(assumption));
            [rewrite conv32 in C by assumption|rewrite conv64 in C by (apply range_32_64; assumption)]; injection C as <-; auto.
        - destruct T as [-> | ->]; cbn [cast_val ctype dbits] in *; fold s32 s64 in *; assert (Rx := B32 z ltac:(assumption));
            [rewrite conv32 in C by assumption|rewrite conv64 in C by (apply range_32_64; assumption)]; injection C as <-; auto.
        - destruct T as [-> | ->]; cbn [cast_val ctype dbits] in *; fold s32 s64 in *; [contradiction|].
          rewrite conv64 in C by (apply range_32_64; assumption). injection C as <-. auto.
        - destruct T as [-> | ->]; [|contradiction]. exfalso. destruct W as [W|[[W _]|[[W _]|[_ W]]]]; discriminate W. }
      destruct Q as [-> Q]. destruct T as [-> | ->]; apply lit_rel; auto.
  - split; [|reflexivity]. split; [left; reflexivity|]. split; [discriminate|]. intros v.
    assert (Nd : d <> t) by (intros ->; destruct N as [N|[N _]]; contradiction).
    rewrite eval_to, (dtype_eqb_ne (dt p) t) by congruence.
    destruct (eval env p) as [v0| | |] eqn:E0; cbn [bind]; try discriminate. intros V.
    destruct (S v0 eq_refl) as (v' & E' & R).
    destruct (rel_widen d t v0 (dt e) v' R W Nd NE) as (w & w' & C1 & C2 & R').
    exists w'. split; [cbn; rewrite E'; cbn; rewrite (dtype_eqb_ne (dt e) t) by assumption; exact C2|]. cbn. congruence.
Qed.

Lemma to_same e : to (dt e) e = e.
Proof. unfold to. rewrite dtype_eqb_refl. reflexivity. Qed.

Lemma bool_to_32 env p e : sim env DBool p e -> dt e = DBool -> sim env DBool p (ECast (DInt 32) e).
Proof.
  intros (N & L & S) D. split; [right; auto|]. split; [discriminate|]. intros v E.
  destruct (S v E) as (v' & E' & R). rewrite D in R. inversion R; subst.
  exists (VI s32 z). split; [|constructor; assumption]. cbn [eval]. rewrite E', D. cbn [bind dtype_eqb DBool cast_val ctype].
  fold s32. rewrite conv32; [reflexivity|]. unfold range; change (32 - 1) with 31; lia.
Qed.

Lemma match_sim env p q a b a' b' : std_type (dt p) -> std_type (dt q) ->
  sim env (dt p) p a -> sim env (dt q) q b -> match_types a b = Ok (a', b') ->
  let t := join (dt p) (dt q) in
  near t (dt a') /\ dt b' = dt a' /\ sim env t (to t p) a' /\ sim env t (to t q) b'.
Proof.
  intros Sp Sq Sa Sb M t.
  pose proof Sa as (Na & _ & _). pose proof Sb as (Nb & _ & _).
  (* both bool *)
  assert (BB : dt p = DBool -> dt q = DBool -> near t (dt a') /\ dt b' = dt a' /\ sim env t (to t p) a' /\ sim env t (to t q) b').
  { intros Dp Dq. assert (t = DBool) as -> by (unfold t; rewrite Dp, Dq; reflexivity).
    assert (to DBool p = p) as -> by (rewrite <- Dp; apply to_same). assert (to DBool q = q) as -> by (rewrite <- Dq; apply to_same). rewrite Dp in Sa, Na. rewrite Dq in Sb, Nb.
    unfold match_types in M. destruct Na as [Na|[_ Na]], Nb as [Nb|[_ Nb]]; rewrite Na, Nb in M; cbn in M; injection M as <- <-.
    - split; [left; assumption|]. split; [congruence|auto].
    - unfold simple_cast. rewrite Na, Nb. cbn [dtype_eqb DBool]. change (32 =? 32) with true. cbv iota.
      split; [right; auto|]. split; [assumption|]. split; [apply bool_to_32; assumption|assumption].
    - unfold simple_cast. rewrite Na, Nb. cbn [dtype_eqb DBool]. change (32 =? 32) with true. cbv iota.
      split; [right; auto|]. split; [cbn; congruence|]. split; [assumption|apply bool_to_32; assumption].
    - split; [right; auto|]. split; [congruence|auto]. }
  assert (NB : t <> DBool -> widens (dt p) t -> widens (dt q) t ->
     ((a' = a /\ dt a = t) \/ cast t a = Ok a' \/ a' = simple_cast t a) ->
     ((b' = b /\ dt b = t) \/ cast t b = Ok b' \/ b' = simple_cast t b) ->
     near t (dt a') /\ dt b' = dt a' /\ sim env t (to t p) a' /\ sim env t (to t q) b').
  { intros Nt Wp Wq Ca Cb.
    destruct (conv_sim env (dt p) t p a a' eq_refl Sa Wp Sp Nt Ca) as [S1 D1].
    destruct (conv_sim env (dt q) t q b b' eq_refl Sb Wq Sq Nt Cb) as [S2 D2].
    split; [left; assumption|]. split; [congruence|]. auto. }
  revert BB NB. unfold t. clear t. unfold match_types in M.
  assert (OK : forall (x y u v : expr), Ok (x, y) = Ok (u, v) -> u = x /\ v = y) by (intros; split; congruence).
  destruct Sp as [Dp|[Dp|[Dp|Dp]]], Sq as [Dq|[Dq|[Dq|Dq]]]; rewrite Dp, Dq in *; cbn [join]; cbv [Z.max Z.compare Pos.compare Pos.compare_cont];
    intros BB NB; try (apply BB; reflexivity); (apply NB; [discriminate|unfold widens; solve [auto 8]|unfold widens; solve [auto 8]| |]);
    (destruct Na as [Na|[Ka Na]]; [|try discriminate Ka]); (destruct Nb as [Nb|[Kb Nb]]; [|try discriminate Kb]);
    rewrite Na, Nb in M; cbn in M;
    repeat match type of M with (bind (cast ?t ?e) _) = _ => destruct (cast t e) as [?x| | |] eqn:?C; cbn in M; [|discriminate M..] end;
    apply OK in M; destruct M as [-> ->]; auto.
Qed.
(** ** Floats: operands that differ in the sign of a zero *)
Lemma feq_sym x y : feq x y -> feq y x.
Proof. intros [->|(s & s' & -> & ->)]; [left; reflexivity|right; exists s', s; auto]. Qed.
Lemma feq_trans x y z : feq x y -> feq y z -> feq x z.
Proof.
  intros [->|(s & s' & -> & ->)] H; [exact H|]. destruct H as [<-|(u & u' & [= ->] & ->)]; right; eauto.
Qed.
Lemma feq_zero s s' : feq (S754_zero s) (S754_zero s').
Proof. right. eauto. Qed.

Lemma dadd_feq x x' y y' : feq x x' -> feq y y' -> feq (dadd x y) (dadd x' y').
Proof.
  intros [->|(s & s' & -> & ->)] [->|(u & u' & -> & ->)]; [apply feq_refl| | |].
  - destruct x'; cbn; try apply feq_refl. destruct (Bool.eqb s u), (Bool.eqb s u'); apply feq_zero.
  - destruct y'; cbn; try apply feq_refl. destruct (Bool.eqb s s0), (Bool.eqb s' s0); apply feq_zero.
  - cbn. destruct (Bool.eqb s u), (Bool.eqb s' u'); apply feq_zero.
Qed.
Lemma dsub_feq x x' y y' : feq x x' -> feq y y' -> feq (dsub x y) (dsub x' y').
Proof.
  intros [->|(s & s' & -> & ->)] [->|(u & u' & -> & ->)]; [apply feq_refl| | |].
  - destruct x'; cbn; try apply feq_refl. destruct (Bool.eqb s (negb u)), (Bool.eqb s (negb u')); apply feq_zero.
  - destruct y'; cbn; try apply feq_refl. destruct (Bool.eqb s (negb s0)), (Bool.eqb s' (negb s0)); apply feq_zero.
  - cbn. destruct (Bool.eqb s (negb u)), (Bool.eqb s' (negb u')); apply feq_zero.
Qed.
Lemma dmul_feq x x' y y' : feq x x' -> feq y y' -> feq (dmul x y) (dmul x' y').
Proof.
  intros [->|(s & s' & -> & ->)] [->|(u & u' & -> & ->)]; [apply feq_refl| | |].
  - destruct x'; cbn; try apply feq_refl; apply feq_zero.
  - destruct y'; cbn; try apply feq_refl; apply feq_zero.
  - cbn. apply feq_zero.
Qed.
Lemma is_zero_iff x : is_zero x = true <-> exists s, x = S754_zero s.
Proof.
  unfold is_zero. destruct x as [s|s| |s m e]; cbn.
  - split; eauto.
  - split; [destruct s; discriminate|intros [? H]; discriminate H].
  - split; [discriminate|intros [? H]; discriminate H].
  - split; [destruct s; discriminate|intros [? H]; discriminate H].
Qed.
Lemma ddiv_feq x x' y y' : feq x x' -> feq y y' -> is_zero y = false -> feq (ddiv x y) (ddiv x' y').
Proof.
  intros Hx Hy Z. destruct Hy as [<-|(u & u' & -> & ->)]; [|discriminate Z].
  destruct Hx as [->|(s & s' & -> & ->)]; [apply feq_refl|].
  destruct y; cbn; try apply feq_refl; apply feq_zero.
Qed.
Lemma cmp_feq x x' y y' : feq x x' -> feq y y' -> SFcompare x y = SFcompare x' y'.
Proof.
  intros [->|(s & s' & -> & ->)] [->|(u & u' & -> & ->)]; try reflexivity. 
Qed.
Lemma fcmp_feq o x x' y y' : feq x x' -> feq y y' -> fcmp o x y = fcmp o x' y'.
Proof.
  intros Hx Hy. unfold fcmp, SFltb, SFleb, SFeqb. rewrite (cmp_feq x x' y y' Hx Hy), (cmp_feq y y' x x' Hy Hx). reflexivity.
Qed.
Lemma is_zero_feq x x' : feq x x' -> is_zero x = is_zero x'.
Proof. intros [->|(s & s' & -> & ->)]; reflexivity. Qed.

(** a zero dividend *)
Lemma floordiv_zero s y v : arith_floordiv (S754_zero s) y = Ok v -> exists s', v = S754_zero s'.
Proof.
  unfold arith_floordiv, float_divmod, checked. destruct (is_zero y) eqn:Z; [discriminate|].
  destruct y as [u|u| |u m e]; [discriminate Z| | |]; cbn.
  - destruct s; cbn; intros [= <-]; eexists; reflexivity.
  - discriminate.
  - destruct s; cbn; intros [= <-]; eexists; reflexivity.
Qed.
Lemma floormod_zero s y v : arith_floormod (S754_zero s) y = Ok v -> exists s', v = S754_zero s'.
Proof.
  unfold arith_floormod, float_rem, checked. destruct (is_zero y) eqn:Z; [discriminate|].
  destruct y as [u|u| |u m e]; [discriminate Z| | |]; cbn; try discriminate; intros [= <-]; eexists; reflexivity.
Qed.
Lemma floordiv_zero_ok s s' y v : arith_floordiv (S754_zero s) y = Ok v -> exists v', arith_floordiv (S754_zero s') y = Ok v'.
Proof.
  unfold arith_floordiv, float_divmod, checked. destruct (is_zero y) eqn:Z; [discriminate|].
  destruct y as [u|u| |u m e]; [discriminate Z| | |]; cbn.
  - destruct s, s'; cbn; eauto.
  - discriminate.
  - destruct s, s'; cbn; eauto.
Qed.
Lemma floormod_zero_ok s s' y v : arith_floormod (S754_zero s) y = Ok v -> exists v', arith_floormod (S754_zero s') y = Ok v'.
Proof.
  unfold arith_floormod, float_rem, checked. destruct (is_zero y) eqn:Z; [discriminate|].
  destruct y as [u|u| |u m e]; [discriminate Z| | |]; cbn; eauto.
Qed.

Definition flt_opb (o : binop) : bool :=
  match o with Add | Sub | Mul | Div | FloorDiv | FloorMod => true | _ => false end.

Lemma div_feq x x' y y' v : feq x x' -> feq y y' -> arith_div x y = Ok v ->
  exists v', arith_div x' y' = Ok v' /\ feq v v'.
Proof.
  intros Hx Hy. unfold arith_div, float_div, checked. rewrite <- (is_zero_feq y y' Hy).
  destruct (is_zero y) eqn:Z; [discriminate|]. cbn [bind]. pose proof (ddiv_feq x x' y y' Hx Hy Z) as F.
  destruct (not_finite (ddiv x y)) eqn:NF; [discriminate|]. intros [= <-]. exists (ddiv x' y'). split; [|exact F].
  assert (not_finite (ddiv x' y') = false) as ->; [|reflexivity].
  destruct F as [<-|(s & s' & _ & ->)]; [exact NF|reflexivity].
Qed.
Lemma floordiv_feq x x' y y' v : feq x x' -> feq y y' -> arith_floordiv x y = Ok v ->
  exists v', arith_floordiv x' y' = Ok v' /\ feq v v'.
Proof.
  intros Hx Hy E. destruct Hy as [<-|(u & u' & -> & ->)].
  2:{ cbn in E. discriminate E. }
  destruct Hx as [<-|(s & s' & -> & ->)]; [exists v; split; [assumption|apply feq_refl]|].
  destruct (floordiv_zero_ok s s' y v E) as (v' & E'). exists v'. split; [assumption|].
  apply floordiv_zero in E, E'. destruct E as [? ->], E' as [? ->]. apply feq_zero.
Qed.
Lemma floormod_feq x x' y y' v : feq x x' -> feq y y' -> arith_floormod x y = Ok v ->
  exists v', arith_floormod x' y' = Ok v' /\ feq v v'.
Proof.
  intros Hx Hy E. destruct Hy as [<-|(u & u' & -> & ->)].
  2:{ cbn in E. discriminate E. }
  destruct Hx as [<-|(s & s' & -> & ->)]; [exists v; split; [assumption|apply feq_refl]|].
  destruct (floormod_zero_ok s s' y v E) as (v' & E'). exists v'. split; [assumption|].
  apply floormod_zero in E, E'. destruct E as [? ->], E' as [? ->]. apply feq_zero.
Qed.

Lemma flt_op_feq o x x' y y' v : flt_opb o = true -> feq x x' -> feq y y' -> flt_op o x y = Ok v ->
  exists z z', v = VF z /\ flt_op o x' y' = Ok (VF z') /\ feq z z'.
Proof.
  intros Ho Hx Hy. destruct o; try discriminate Ho; cbn [flt_op].
  - intros [= <-]. exists (dadd x y), (dadd x' y'). auto using dadd_feq.
  - intros [= <-]. exists (dsub x y), (dsub x' y'). auto using dsub_feq.
  - intros [= <-]. exists (dmul x y), (dmul x' y'). auto using dmul_feq.
  - destruct (arith_div x y) as [q| | |] eqn:E; cbn; try discriminate. intros [= <-].
    destruct (div_feq x x' y y' q Hx Hy E) as (q' & -> & F). exists q, q'. auto.
  - destruct (arith_floordiv x y) as [q| | |] eqn:E; cbn; try discriminate. intros [= <-].
    destruct (floordiv_feq x x' y y' q Hx Hy E) as (q' & -> & F). exists q, q'. auto.
  - destruct (arith_floormod x y) as [q| | |] eqn:E; cbn; try discriminate. intros [= <-].
    destruct (floormod_feq x x' y y' q Hx Hy E) as (q' & -> & F). exists q, q'. auto.
Qed.

(** ** Folding on floats *)
Lemma flit_inv x y : flit x = Ok (VF y) -> finite_double y -> x = y.
Proof. destruct x; cbn; intros [= <-]; try contradiction; reflexivity. Qed.
Lemma SFeqb_zero x : SFeqb x dzero = true -> exists s, x = S754_zero s.
Proof. apply is_zero_iff. Qed.
Lemma SFeqb_fin m e m' e' : SFeqb (S754_finite false m e) (S754_finite false m' e') = true -> m = m' /\ e = e'.
Proof.
  unfold SFeqb, SFcompare. destruct (Z.compare_spec e e'); try discriminate. subst e'. rewrite Pos.compare_cont_spec.
  destruct (Pos.compare_spec m m'); try discriminate. auto.
Qed.
Lemma SFeqb_one x : finite_double x -> SFeqb x done = true -> x = done.
Proof.
  destruct x as [s|s| |s m e]; cbn [finite_double]; try contradiction; intros B E.
  - discriminate E.
  - destruct s; [discriminate E|]. apply SFeqb_fin in E. destruct E as [-> ->]. reflexivity.
Qed.
Lemma dadd_zero_l s y : finite_double y -> feq (dadd (S754_zero s) y) y.
Proof. destruct y; cbn; try contradiction; intros _; [|apply feq_refl]. destruct (Bool.eqb s s0); apply feq_zero. Qed.
Lemma dadd_zero_r s x : finite_double x -> feq (dadd x (S754_zero s)) x.
Proof. destruct x; cbn; try contradiction; intros _; [|apply feq_refl]. destruct (Bool.eqb s0 s); apply feq_zero. Qed.
Lemma dsub_zero_r s x : finite_double x -> feq (dsub x (S754_zero s)) x.
Proof. destruct x; cbn; try contradiction; intros _; [|apply feq_refl]. destruct (Bool.eqb s0 (negb s)); apply feq_zero. Qed.
Lemma dmul_zero_l s y : finite_double y -> feq (dmul (S754_zero s) y) (S754_zero s).
Proof. destruct y; cbn; try contradiction; intros _; apply feq_zero. Qed.
Lemma dmul_zero_r s x : finite_double x -> feq (dmul x (S754_zero s)) (S754_zero s).
Proof. destruct x; cbn; try contradiction; intros _; apply feq_zero. Qed.
Lemma done_one : done = one.
Proof. reflexivity. Qed.
Lemma dmul_one_l y : finite_double y -> feq (dmul done y) y.
Proof. destruct y; cbn [finite_double]; try contradiction; intros H; [apply feq_zero|]. left. apply mul_one_l, H. Qed.
Lemma dmul_one_r x : finite_double x -> feq (dmul x done) x.
Proof. destruct x; cbn [finite_double]; try contradiction; intros H; [apply feq_zero|]. left. apply mul_one_r, H. Qed.
Lemma ddiv_one_r x : finite_double x -> feq (ddiv x done) x.
Proof. destruct x; cbn [finite_double]; try contradiction; intros H; [apply feq_zero|]. left. apply div_one, H. Qed.

Lemma cmp_swap x y : finite_double x -> finite_double y ->
  SFcompare y x = match SFcompare x y with Some c => Some (CompOpp c) | None => None end.
Proof.
  destruct x as [s|s| |s m e], y as [s'|s'| |s' m' e']; cbn [finite_double]; try contradiction; intros Hx Hy; cbn; try (destruct s; reflexivity); try (destruct s'; reflexivity).
  rewrite (Z.compare_antisym e e'). rewrite !Pos.compare_cont_spec, (Pos.compare_antisym m m').
  destruct s, s'; cbn; try reflexivity; destruct (e ?= e'); try reflexivity; destruct (m ?= m')%positive; reflexivity.
Qed.
Lemma cmp_eq_feq x y : finite_double x -> finite_double y -> SFcompare x y = Some Eq -> feq x y.
Proof.
  destruct x as [s|s| |s m e], y as [s'|s'| |s' m' e']; cbn [finite_double]; try contradiction; intros Hx Hy; cbn; try (destruct s; discriminate); try (destruct s'; discriminate).
  - intros _. apply feq_zero.
  - rewrite Pos.compare_cont_spec. destruct s, s'; try discriminate; destruct (Z.compare_spec e e'); try discriminate; subst;
      destruct (Pos.compare_spec m m'); cbn; try discriminate; subst; left; reflexivity.
Qed.
Lemma cmp_some x y : finite_double x -> finite_double y -> SFcompare x y <> None.
Proof.
  destruct x as [s|s| |s m e], y as [s'|s'| |s' m' e']; cbn [finite_double]; try contradiction; intros Hx Hy; cbn; try (destruct s; discriminate); try (destruct s'; discriminate); try discriminate.
Qed.

Definition agreeF (e : expr) (x : double) : Prop := forall w, pflt e = Some w -> w = x.
Definition fm (o : binop) (x y z : double) : Prop :=
  flt_op o x y = Ok (VF z) \/ ((o = Min \/ o = Max) /\ minmax o (VF x) (VF y) = Ok (VF z)).
Definition flt_all (o : binop) : bool := match o with Min | Max => true | _ => flt_opb o end.

Definition outcomeF (o : binop) (a c e : expr) : Prop :=
  e = EBin o a c \/
  (e = a /\ forall x y z, agreeF a x -> agreeF c y -> (a = c -> x = y) -> finite_double x -> finite_double y -> fm o x y z -> feq z x) \/
  (e = c /\ forall x y z, agreeF a x -> agreeF c y -> (a = c -> x = y) -> finite_double x -> finite_double y -> fm o x y z -> feq z y) \/
  (exists w, e = EFlt w /\
     forall x y z, agreeF a x -> agreeF c y -> (a = c -> x = y) -> finite_double x -> finite_double y -> fm o x y z -> feq z w).

Ltac fmd M := destruct M as [M|[[M|M] _]]; [cbn [flt_op] in M|discriminate M|discriminate M].

Lemma arith_div_inv x y z : (let! q := arith_div x y in Ok (VF q)) = Ok (VF z) -> z = ddiv x y /\ is_zero y = false.
Proof.
  unfold arith_div, float_div, checked. destruct (is_zero y) eqn:Z; [discriminate|]. cbn [bind].
  destruct (not_finite (ddiv x y)); [discriminate|]. cbn. intros [= <-]. auto.
Qed.

Lemma fold_flt_spec same o a c r : (forall u v, same u v = true -> u = v) -> flt_all o = true ->
  dt a = DF64 -> dt c = DF64 -> lits a -> lits c ->
  fold same o a c = Ok r -> outcomeF o a c (or_node o a c r).
Proof.
  intros HS Ho Da Dc La Lc.
  assert (Ia : pint a = None) by (apply pint_none; assumption).
  assert (Ic : pint c = None) by (apply pint_none; assumption).
  destruct o; try discriminate Ho; cbn [fold].
  - (* Add *)
    unfold fold_add. rewrite !isint_pint, !isflt_pflt, Ia, Ic.
    destruct (pflt a) as [u|] eqn:Pa, (pflt c) as [v|] eqn:Pc.
    + intros [= <-]. right; right; right. eexists. split; [reflexivity|]. intros x y z A B _ _ _ M. fmd M.
      injection M as <-. rewrite (A u Pa), (B v Pc). apply feq_refl.
    + destruct (SFeqb u dzero) eqn:Z; intros [= <-]; [|left; reflexivity]. right; right; left. split; [reflexivity|].
      intros x y z A B _ Fx Fy M. fmd M. injection M as <-. rewrite (A u Pa) in Z. apply SFeqb_zero in Z. destruct Z as [s ->].
      apply dadd_zero_l, Fy.
    + destruct (SFeqb v dzero) eqn:Z; intros [= <-]; [|left; reflexivity]. right; left. split; [reflexivity|].
      intros x y z A B _ Fx Fy M. fmd M. injection M as <-. rewrite (B v Pc) in Z. apply SFeqb_zero in Z. destruct Z as [s ->].
      apply dadd_zero_r, Fx.
    + intros [= <-]. left; reflexivity.
  - (* Sub *)
    unfold fold_sub. rewrite !isint_pint, !isflt_pflt, Ia, Ic.
    destruct (pflt a) as [u|] eqn:Pa, (pflt c) as [v|] eqn:Pc.
    + intros [= <-]. right; right; right. eexists. split; [reflexivity|]. intros x y z A B _ _ _ M. fmd M.
      injection M as <-. rewrite (A u Pa), (B v Pc). apply feq_refl.
    + intros [= <-]. left; reflexivity.
    + destruct (SFeqb v dzero) eqn:Z; intros [= <-]; [|left; reflexivity]. right; left. split; [reflexivity|].
      intros x y z A B _ Fx Fy M. fmd M. injection M as <-. rewrite (B v Pc) in Z. apply SFeqb_zero in Z. destruct Z as [s ->].
      apply dsub_zero_r, Fx.
    + intros [= <-]. left; reflexivity.
  - (* Mul *)
    unfold fold_mul. rewrite !isint_pint, !isflt_pflt, Ia, Ic.
    destruct (pflt a) as [u|] eqn:Pa, (pflt c) as [v|] eqn:Pc.
    + intros [= <-]. right; right; right. eexists. split; [reflexivity|]. intros x y z A B _ _ _ M. fmd M.
      injection M as <-. rewrite (A u Pa), (B v Pc). apply feq_refl.
    + destruct (SFeqb u done) eqn:O1.
      { intros [= <-]. right; right; left. split; [reflexivity|]. intros x y z A B _ Fx Fy M. fmd M. injection M as <-.
        rewrite (A u Pa) in O1. apply SFeqb_one in O1; [|assumption]. subst x. apply dmul_one_l, Fy. }
      destruct (SFeqb u dzero) eqn:Z; intros [= <-]; [|left; reflexivity]. right; left. split; [reflexivity|].
      intros x y z A B _ Fx Fy M. fmd M. injection M as <-. rewrite (A u Pa) in Z. apply SFeqb_zero in Z. destruct Z as [s ->].
      apply dmul_zero_l, Fy.
    + destruct (SFeqb v done) eqn:O1.
      { intros [= <-]. right; left. split; [reflexivity|]. intros x y z A B _ Fx Fy M. fmd M. injection M as <-.
        rewrite (B v Pc) in O1. apply SFeqb_one in O1; [|assumption]. subst y. apply dmul_one_r, Fx. }
      destruct (SFeqb v dzero) eqn:Z; intros [= <-]; [|left; reflexivity]. right; right; left. split; [reflexivity|].
      intros x y z A B _ Fx Fy M. fmd M. injection M as <-. rewrite (B v Pc) in Z. apply SFeqb_zero in Z. destruct Z as [s ->].
      apply dmul_zero_r, Fx.
    + intros [= <-]. left; reflexivity.
  - (* Div *)
    unfold fold_div. rewrite !isint_pint, !isflt_pflt, Ia, Ic.
    destruct (pflt a) as [u|] eqn:Pa, (pflt c) as [v|] eqn:Pc.
    + destruct (is_zero v) eqn:Zv; cbn [negb].
      * destruct (is_zero u); [|discriminate]. intros [= <-]. right; left. split; [reflexivity|].
        intros x y z A B _ Fx Fy M. fmd M. apply arith_div_inv in M. destruct M as [_ M]. rewrite <- (B v Pc) in M. congruence.
      * intros [= <-]. right; right; right. eexists. split; [reflexivity|]. intros x y z A B _ _ _ M. fmd M.
        apply arith_div_inv in M. destruct M as [-> _]. rewrite (A u Pa), (B v Pc). apply feq_refl.
    + destruct (SFeqb u dzero) eqn:Z; intros [= <-]; [|left; reflexivity]. right; left. split; [reflexivity|].
      intros x y z A B _ Fx Fy M. fmd M. apply arith_div_inv in M. destruct M as [-> Zy]. rewrite (A u Pa) in Z. apply SFeqb_zero in Z. destruct Z as [s ->].
      destruct y; cbn in *; try contradiction; try discriminate; apply feq_zero.
    + destruct (SFeqb v done) eqn:O1.
      { intros [= <-]. right; left. split; [reflexivity|]. intros x y z A B _ Fx Fy M. fmd M. apply arith_div_inv in M. destruct M as [-> _].
        rewrite (B v Pc) in O1. apply SFeqb_one in O1; [|assumption]. subst y. apply ddiv_one_r, Fx. }
      destruct (SFeqb v dzero); [discriminate|]. intros [= <-]. left; reflexivity.
    + intros [= <-]. left; reflexivity.
  - (* FloorDiv *)
    unfold fold_floordiv. rewrite !isint_pint, !isflt_pflt, Ia, Ic.
    destruct (pflt a) as [u|] eqn:Pa, (pflt c) as [v|] eqn:Pc.
    + destruct (is_zero v) eqn:Zv; cbn [negb].
      * destruct (is_zero u); [|discriminate]. intros [= <-]. right; left. split; [reflexivity|].
        intros x y z A B _ Fx Fy M. fmd M. rewrite (B v Pc) in Zv. unfold arith_floordiv, float_divmod, checked in M. rewrite Zv in M. discriminate M.
      * destruct (arith_floordiv u v) as [w| | |] eqn:E; cbn; try discriminate. intros [= <-]. right; right; right. exists w. split; [reflexivity|].
        intros x y z A B _ _ _ M. fmd M. rewrite <- (A u Pa), <- (B v Pc), E in M. cbn in M. injection M as <-. apply feq_refl.
    + destruct (SFeqb u dzero) eqn:Z; intros [= <-]; [|left; reflexivity]. right; left. split; [reflexivity|].
      intros x y z A B _ Fx Fy M. fmd M. rewrite (A u Pa) in Z. apply SFeqb_zero in Z. destruct Z as [s ->].
      destruct (arith_floordiv (S754_zero s) y) as [w| | |] eqn:E; cbn in M; try discriminate. injection M as <-.
      apply floordiv_zero in E. destruct E as [s' ->]. apply feq_zero.
    + destruct (SFeqb v dzero); [discriminate|]. intros [= <-]. left; reflexivity.
    + intros [= <-]. left; reflexivity.
  - (* FloorMod *)
    unfold fold_floormod. rewrite Da, Dc. cbn. intros [= <-]. left; reflexivity.
  - (* Min *)
    unfold fold_min. rewrite Ia.
    assert (SM : forall r0 : option expr, (if same a c then Ok (Some a) else Ok None) = Ok r0 -> outcomeF Min a c (or_node Min a c r0)).
    { intros r0. destruct (same a c) eqn:E; intros [= <-]; [|left; reflexivity]. apply HS in E.
      right; left. split; [reflexivity|]. intros x y z A B EQ Rx Ry M. specialize (EQ E). subst y.
      destruct M as [M|[_ M]]; [discriminate M|]. unfold minmax in M. cbn in M. destruct (SFltb x x); cbn in M; injection M as <-; apply feq_refl. }
    destruct (pflt a) as [u|] eqn:Pa, (pflt c) as [v|] eqn:Pc; try apply SM.
    intros [= <-]. cbn. right; right; right. eexists. split; [reflexivity|].
    intros x y z A B _ Fx Fy M. rewrite (A u Pa), (B v Pc) in *. destruct M as [M|[_ M]]; [discriminate M|].
    unfold minmax in M. cbn [bin_op flt_op bind fcmp] in M. unfold SFltb in *. rewrite (cmp_swap x y Fx Fy).
    destruct (SFcompare x y) as [[| |]|] eqn:C; cbn in M; injection M as <-; cbn [CompOpp]; try apply feq_refl.
    + apply feq_sym, cmp_eq_feq; assumption.
    + destruct (cmp_some x y Fx Fy C).
  - (* Max *)
    unfold fold_max. rewrite Ia.
    assert (SM : forall r0 : option expr, (if same a c then Ok (Some a) else Ok None) = Ok r0 -> outcomeF Max a c (or_node Max a c r0)).
    { intros r0. destruct (same a c) eqn:E; intros [= <-]; [|left; reflexivity]. apply HS in E.
      right; left. split; [reflexivity|]. intros x y z A B EQ Rx Ry M. specialize (EQ E). subst y.
      destruct M as [M|[_ M]]; [discriminate M|]. unfold minmax in M. cbn in M. destruct (SFltb x x); cbn in M; injection M as <-; apply feq_refl. }
    destruct (pflt a) as [u|] eqn:Pa, (pflt c) as [v|] eqn:Pc; try apply SM.
    intros [= <-]. cbn. right; right; right. eexists. split; [reflexivity|].
    intros x y z A B _ Fx Fy M. rewrite (A u Pa), (B v Pc) in *. destruct M as [M|[_ M]]; [discriminate M|].
    unfold minmax in M. cbn [bin_op flt_op bind fcmp] in M. unfold SFltb in *. rewrite (cmp_swap x y Fx Fy) in M.
    destruct (SFcompare x y) as [[| |]|] eqn:C; cbn in M; injection M as <-; cbn [CompOpp]; try apply feq_refl.
    + apply feq_sym, cmp_eq_feq; assumption.
    + destruct (cmp_some x y Fx Fy C).
Qed.
Lemma sim_flt_inv env P a v : sim env DF64 P a -> eval env P = Ok v ->
  exists x y, v = VF x /\ eval env a = Ok (VF y) /\ finite_double x /\ finite_double y /\ feq x y /\ agreeF a y.
Proof.
  intros (N & L & S) E. apply near_flt in N. destruct (S v E) as (v' & E' & R). rewrite N in R.
  inversion R; subst. exists x, y. repeat (split; [solve [auto]|]).
  intros w P'. apply pflt_eq in P'. subst a. cbn in E'. apply flit_inv; assumption.
Qed.

Lemma minmax_feq o x x' y y' v : o = Min \/ o = Max -> feq x x' -> feq y y' -> minmax o (VF x) (VF y) = Ok v ->
  exists z z', v = VF z /\ minmax o (VF x') (VF y') = Ok (VF z') /\ feq z z' /\ (z = x \/ z = y).
Proof.
  intros Ho Hx Hy. unfold minmax. assert (F := fcmp_feq (match o with Min => LT | _ => GT end) x x' y y' Hx Hy).
  destruct Ho as [-> | ->]; cbn [bin_op flt_op bind] in *; rewrite <- F; destruct (fcmp _ x y); cbn; intros [= <-].
  - exists x, x'. auto.
  - exists y, y'. auto.
  - exists x, x'. auto.
  - exists y, y'. auto.
Qed.

Lemma flt_opb_bin o : flt_opb o = true -> o <> And /\ o <> Or /\ o <> Min /\ o <> Max.
Proof. destruct o; cbn; intros H; try discriminate H; repeat split; discriminate. Qed.

Lemma fold_flt_sim env same o P Q a c r : (forall u v, same u v = true -> u = v) -> flt_all o = true ->
  dt P = DF64 -> dt Q = DF64 -> sim env DF64 P a -> sim env DF64 Q c ->
  (forall x, eval env (EBin o P Q) = Ok (VF x) -> finite_double x) ->
  fold same o a c = Ok r -> sim env DF64 (EBin o P Q) (or_node o a c r).
Proof.
  intros HS Ho DP DQ Sa Sc Fin HF. pose proof Sa as (Na & La & _). pose proof Sc as (Nc & Lc & _).
  apply near_flt in Na, Nc.
  assert (X := fold_flt_spec same o a c r HS Ho Na Nc La Lc HF).
  assert (ST : dt (or_node o a c r) = DF64 /\ lits (or_node o a c r)).
  { destruct X as [-> |[[-> _]|[[-> _]|(w & -> & _)]]].
    - split; [|discriminate]. destruct o; try discriminate Ho; cbn; assumption.
    - auto.
    - auto.
    - split; [reflexivity|discriminate]. }
  destruct ST as [D L]. split; [left; exact D|]. split; [exact L|]. intros v E. rewrite D.
  assert (M : exists x y x' y' z z', eval env P = Ok (VF x) /\ eval env Q = Ok (VF y) /\
     eval env a = Ok (VF x') /\ eval env c = Ok (VF y') /\ feq x x' /\ feq y y' /\
     finite_double x' /\ finite_double y' /\ agreeF a x' /\ agreeF c y' /\
     v = VF z /\ fm o x' y' z' /\ feq z z').
  { destruct (flt_opb o) eqn:Ao.
    - destruct (flt_opb_bin o Ao) as (N1 & N2 & N3 & N4).
      apply eval_bin in E; try assumption. destruct E as (p & q & Ep & Eq & E).
      destruct (sim_flt_inv env P a p Sa Ep) as (x & x' & -> & Ea & Fx & Fx' & Qx & Ga).
      destruct (sim_flt_inv env Q c q Sc Eq) as (y & y' & -> & Ec & Fy & Fy' & Qy & Gc).
      cbn [bin_op] in E. destruct (flt_op_feq o x x' y y' v Ao Qx Qy E) as (z & z' & -> & E' & Qz).
      exists x, y, x', y', z, z'. repeat (split; [solve [auto]|]). split; [left; exact E'|exact Qz].
    - assert (Ho' : o = Min \/ o = Max) by (destruct o; try discriminate Ho; auto; discriminate Ao).
      apply eval_minmax in E; [|assumption]. destruct E as (p & p' & q & q' & Ep & Cp & Eq & Cq & E).
      destruct (sim_flt_inv env P a p Sa Ep) as (x & x' & -> & Ea & Fx & Fx' & Qx & Ga).
      destruct (sim_flt_inv env Q c q Sc Eq) as (y & y' & -> & Ec & Fy & Fy' & Qy & Gc).
      rewrite DP in Cp. rewrite DQ in Cq. cbn in Cp, Cq. injection Cp as <-. injection Cq as <-.
      destruct (minmax_feq o x x' y y' v Ho' Qx Qy E) as (z & z' & -> & E' & Qz & _).
      exists x, y, x', y', z, z'. repeat (split; [solve [auto]|]). split; [right; auto|exact Qz]. }
  destruct M as (x & y & x' & y' & z & z' & Ep & Eq & Ea & Ec & Qx & Qy & Fx' & Fy' & Ga & Gc & -> & M & Qz).
  assert (Fz := Fin z E). assert (EQ : a = c -> x' = y') by (intros ->; congruence).
  assert (Fin' : forall w, feq z w -> rel DF64 (VF z) DF64 (VF w)).
  { intros w Hw. constructor; [assumption| |assumption]. apply feq_finite with z; assumption. }
  destruct X as [-> |[[-> K]|[[-> K]|(w & -> & K)]]].
  - exists (VF z'). split; [|apply Fin', Qz]. destruct M as [M|[Ho' M]].
    + assert (Ao : flt_opb o = true) by (destruct o; try discriminate Ho; try reflexivity; discriminate M).
      destruct (flt_opb_bin o Ao) as (N1 & N2 & N3 & N4).
      apply eval_bin; try assumption. exists (VF x'), (VF y'). auto.
    + apply eval_minmax; [assumption|]. exists (VF x'), (VF x'), (VF y'), (VF y'). rewrite Na, Nc. auto.
  - exists (VF x'). split; [assumption|]. apply Fin'. apply feq_trans with z'; [assumption|].
    apply (K x' y' z'); assumption.
  - exists (VF y'). split; [assumption|]. apply Fin'. apply feq_trans with z'; [assumption|].
    apply (K x' y' z'); assumption.
  - assert (Hw : feq z w) by (apply feq_trans with z'; [assumption|]; apply (K x' y' z'); assumption).
    exists (VF w). split; [|apply Fin', Hw]. cbn. apply flit_finite. apply feq_finite with z; assumption.
Qed.

(** ** Comparisons *)
Definition fits (t : cty) (z : Z) : Prop :=
  (t = CBool /\ (z = 0 \/ z = 1)) \/ (t = s32 /\ range 32 z) \/ (t = s64 /\ range 64 z).
Lemma fits_conv t u x y : fits t x -> fits u y -> conv (common t u) x = x /\ conv (common t u) y = y.
Proof.
  assert (B : forall z, z = 0 \/ z = 1 -> range 32 z) by (unfold range; change (32 - 1) with 31; lia).
  intros [[-> X]|[[-> X]|[-> X]]] [[-> Y]|[[-> Y]|[-> Y]]]; cbn [common promote s32 s64]; cbv [Z.max Z.compare Pos.compare Pos.compare_cont Z.ltb];
   fold s32 s64; split; ((apply conv32; auto; fail) || (apply conv64; auto using range_32_64)).
Qed.
Lemma cmp_int o t u x y : is_cmp o = true -> fits t x -> fits u y -> int_op o t x u y = Ok (vbool (zcmp o x y)).
Proof.
  intros Ho X Y. destruct (fits_conv t u x y X Y) as [A B]. unfold int_op. rewrite A, B. destruct o; try discriminate Ho; reflexivity.
Qed.

Lemma rel_inv d v d' v' : rel d v d' v' ->
  (exists z t t', v = VI t z /\ v' = VI t' z /\ fits t z /\ fits t' z /\ d <> DF64 /\ d' <> DF64) \/
  (exists x y, v = VF x /\ v' = VF y /\ finite_double x /\ finite_double y /\ feq x y /\ d = DF64 /\ d' = DF64).
Proof.
  assert (B : forall z, z = 0 \/ z = 1 -> range 32 z) by (unfold range; change (32 - 1) with 31; lia).
  intros H. destruct H.
  - left. exists z, CBool, CBool. unfold fits, DBool. repeat split; auto; discriminate.
  - left. exists z, CBool, s32. unfold fits, DBool. repeat split; auto; discriminate.
  - left. exists z, s32, t. assert (R := range_32_64 _ H). unfold fits. repeat split; auto; try discriminate.
    right. destruct H0 as [-> | ->]; auto.
  - left. exists z, s64, s64. unfold fits. repeat split; auto; discriminate.
  - right. exists x, y. auto 8.
Qed.

Lemma rel_lit d v e w : rel d v (dt e) w -> forall z, pint e = Some z -> lits e -> forall env, eval env e = Ok w -> exists t, w = VI t z.
Proof.
  intros _ z P L env E. assert (K := pint_lit_ok _ _ L P). apply pint_eq in P. rewrite P in E. cbn in E.
  destruct (lit_val _ _ K) as (t & K' & _). rewrite K' in E. exists t. congruence.
Qed.

Lemma cmp_sim env same o t P Q a c r : is_cmp o = true ->
  sim env t P a -> sim env t Q c ->
  fold same o a c = Ok r -> sim env DBool (EBin o P Q) (or_node o a c r).
Proof.
  intros Ho Sa Sc HF. pose proof Sa as (Na & La & Va). pose proof Sc as (Nc & Lc & Vc).
  assert (HF' : fold_cmp o a c = Ok r) by (destruct o; try discriminate Ho; exact HF). clear HF.
  assert (No : o <> And /\ o <> Or /\ o <> Min /\ o <> Max) by (destruct o; try discriminate Ho; repeat split; discriminate).
  destruct No as (N1 & N2 & N3 & N4).
  assert (X : or_node o a c r = EBin o a c \/
     (exists x y, pint a = Some x /\ pint c = Some y /\ or_node o a c r = EInt DBool (if zcmp o x y then 1 else 0)) \/
     (exists x y, pflt a = Some x /\ pflt c = Some y /\ or_node o a c r = EInt DBool (if fcmp o x y then 1 else 0))).
  { unfold fold_cmp in HF'. destruct (pint a) as [x|] eqn:Pa, (pint c) as [y|] eqn:Pc; cbn in HF'.
    1:{ right; left. exists x, y. split; [reflexivity|]. split; [reflexivity|]. destruct (zcmp o x y); cbn in *; injection HF' as <-; reflexivity. }
    all: destruct (pflt a) as [x'|] eqn:Fa; [destruct (pflt c) as [y'|] eqn:Fc|]; try (injection HF' as <-; left; reflexivity);
      right; right; exists x', y'; (split; [reflexivity|]); (split; [reflexivity|]); destruct (fcmp o x' y'); cbn in *; injection HF' as <-; reflexivity. }
  assert (ST : dt (or_node o a c r) = DBool /\ lits (or_node o a c r)).
  { destruct X as [-> |[(x & y & _ & _ & ->)|(x & y & _ & _ & ->)]].
    - split; [destruct o; try discriminate Ho; reflexivity|discriminate].
    - split; [reflexivity|]. intros d z [= <- <-]. left. split; [reflexivity|]. destruct (zcmp o x y); auto.
    - split; [reflexivity|]. intros d z [= <- <-]. left. split; [reflexivity|]. destruct (fcmp o x y); auto. }
  destruct ST as [D L]. split; [left; exact D|]. split; [exact L|]. intros v E. rewrite D.
  apply eval_bin in E; try assumption. destruct E as (p & q & Ep & Eq & E).
  destruct (Va p Ep) as (p' & Ea & Ra). destruct (Vc q Eq) as (q' & Ec & Rc).
  assert (K : exists k : bool, v = vbool k /\ bin_op o p' q' = Ok (vbool k) /\
     (forall x y, pint a = Some x -> pint c = Some y -> zcmp o x y = k) /\
     (forall x y, pflt a = Some x -> pflt c = Some y -> fcmp o x y = k)).
  { destruct (rel_inv _ _ _ _ Ra) as [(x & tx & tx' & -> & -> & Fx & Fx' & Da & Da')|(x & x' & -> & -> & Fx & Fx' & Qx & Da & Da')];
    destruct (rel_inv _ _ _ _ Rc) as [(y & ty & ty' & -> & -> & Fy & Fy' & Dc & Dc')|(y & y' & -> & -> & Fy & Fy' & Qy & Dc & Dc')]; try congruence.
    - cbn [bin_op] in *. rewrite cmp_int in E by assumption. injection E as <-. exists (zcmp o x y).
      split; [reflexivity|]. split; [apply cmp_int; assumption|]. split.
      + intros x0 y0 P1 P2. destruct (rel_lit _ _ _ _ Ra x0 P1 La env Ea) as (? & [= _ ->]).
        destruct (rel_lit _ _ _ _ Rc y0 P2 Lc env Ec) as (? & [= _ ->]). reflexivity.
      + intros x0 y0 P1 P2. apply pflt_eq in P1. subst a. cbn in Da'. congruence.
    - cbn [bin_op] in *. assert (flt_op o x y = Ok (vbool (fcmp o x y))) as K by (destruct o; try discriminate Ho; reflexivity).
      rewrite K in E. injection E as <-. exists (fcmp o x y).
      split; [reflexivity|]. split.
      { assert (flt_op o x' y' = Ok (vbool (fcmp o x' y'))) as -> by (destruct o; try discriminate Ho; reflexivity).
        rewrite (fcmp_feq o x x' y y' Qx Qy). reflexivity. }
      split.
      + intros x0 y0 P1 P2. rewrite pint_none in P1 by assumption. discriminate P1.
      + intros x0 y0 P1 P2. apply pflt_eq in P1, P2. subst a c. cbn in Ea, Ec.
        apply flit_inv in Ea, Ec; try assumption. subst. symmetry. apply fcmp_feq; assumption. }
  destruct K as (k & -> & E' & K1 & K2).
  destruct X as [-> |[(x & y & P1 & P2 & ->)|(x & y & P1 & P2 & ->)]].
  - exists (vbool k). split; [apply eval_bin; try assumption; exists p', q'; auto|]. constructor. destruct k; auto.
  - rewrite (K1 x y P1 P2). exists (vbool k). split; [destruct k; reflexivity|]. constructor. destruct k; auto.
  - rewrite (K2 x y P1 P2). exists (vbool k). split; [destruct k; reflexivity|]. constructor. destruct k; auto.
Qed.

(** ** And, or, not *)
Lemma sim_bool_inv env P a v : sim env DBool P a -> eval env P = Ok v ->
  exists z v', v = VI CBool z /\ (z = 0 \/ z = 1) /\ eval env a = Ok v' /\ rel DBool v (dt a) v' /\ truthy v' = truthy v /\
    (v' = VI CBool z \/ v' = VI s32 z) /\ agree a z.
Proof.
  intros (N & L & S) E. destruct (S v E) as (v' & E' & R).
  assert (A : forall z, (exists t, v' = VI t z) -> agree a z).
  { intros z (t & ->) w P'. destruct (rel_lit _ _ _ _ R w P' L env E') as (? & [= _ ->]). reflexivity. }
  remember (dt a) as da eqn:Da. pose proof R as R0. inversion R; subst.
  - exists z, (VI CBool z). repeat (split; [solve [auto using rel_bool]|]). apply A. eauto.
  - exists z, (VI s32 z). repeat (split; [solve [auto using rel_bool32]|]). apply A. eauto.
Qed.

Definition lit01 (e : expr) : Prop := forall d z, e = EInt d z -> z = 0 \/ z = 1.
Lemma lits01 e : lits e -> dt e = DBool -> lit01 e.
Proof. intros L D d z ->. cbn in D. subst d. destruct (L _ _ eq_refl) as [[_ H]|[[H|H] _]]; [exact H|discriminate H..]. Qed.

Lemma cast_bool_sim env P a e : sim env DBool P a -> lit01 a -> cast DBool a = Ok e -> sim env DBool P e /\ dt e = DBool.
Proof.
  intros Sa L01 C. pose proof Sa as (N & L & S). unfold cast in C. destruct (dtype_eqb (dt a) DBool) eqn:E.
  { injection C as <-. split; [exact Sa|]. apply dtype_eqb_eq, E. }
  assert (De : dt a = DInt 32) by (destruct N as [N|[_ N]]; [rewrite N, dtype_eqb_refl in E; discriminate E|exact N]).
  assert (X : (exists z, a = EInt (DInt 32) z /\ e = EInt DBool z) \/ e = ECast DBool a).
  { destruct a; try (right; congruence); cbn in De.
    - subst d. cbn in C. destruct (v <? 0); [discriminate C|]. injection C as <-. left. eauto.
    - discriminate De. }
  destruct X as [(z & -> & ->)| ->].
  - assert (Z01 := L01 _ _ eq_refl). split; [|reflexivity]. split; [left; reflexivity|].
    split. { intros d z0 [= <- <-]. left. auto. }
    intros v E0. destruct (sim_bool_inv env P _ v Sa E0) as (z' & v' & -> & _ & _ & _ & _ & _ & A).
    rewrite <- (A z eq_refl). exists (VI CBool z). split; [destruct Z01 as [-> | ->]; reflexivity|]. constructor. assumption.
  - split; [|reflexivity]. split; [left; reflexivity|]. split; [discriminate|]. intros v E0.
    destruct (sim_bool_inv env P _ v Sa E0) as (z & v' & -> & Z01 & E' & R & _ & V' & _).
    exists (VI CBool z). split; [|constructor; assumption]. cbn [eval]. rewrite E'. cbn [bind]. rewrite E.
    destruct V' as [-> | ->]; cbn; destruct Z01 as [-> | ->]; reflexivity.
Qed.

Definition and_or (o : binop) (x y : bool) : bool := match o with And => x && y | _ => x || y end.
Lemma eval_logic env o P Q v : o = And \/ o = Or -> eval env (EBin o P Q) = Ok v ->
  exists p, eval env P = Ok p /\
    ((truthy p = match o with And => false | _ => true end /\ v = vbool (truthy p)) \/
     (truthy p = match o with And => true | _ => false end /\ exists q, eval env Q = Ok q /\ v = vbool (truthy q))).
Proof.
  intros [-> | ->]; cbn [eval]; (destruct (eval env P) as [p| | |]; cbn [bind]; [|discriminate..]); intros E; exists p; (split; [reflexivity|]);
    destruct (truthy p) eqn:T.
  - right. split; [reflexivity|]. destruct (eval env Q) as [q| | |]; cbn in E; try discriminate. injection E as <-. eauto.
  - left. split; [reflexivity|]. congruence.
  - left. split; [reflexivity|]. congruence.
  - right. split; [reflexivity|]. destruct (eval env Q) as [q| | |]; cbn in E; try discriminate. injection E as <-. eauto.
Qed.

Lemma logic_sim env same o P Q a c r : o = And \/ o = Or ->
  sim env DBool P a -> sim env DBool Q c -> lit01 a -> lit01 c ->
  fold same o a c = Ok r -> sim env DBool (EBin o P Q) (or_node o a c r) /\ lit01 (or_node o a c r).
Proof.
  intros Ho Sa Sc La1 Lc1 HF. pose proof Sa as (Na & La & Va). pose proof Sc as (Nc & Lc & Vc).
  assert (TV : forall z, z = 0 \/ z = 1 -> vbool (negb (z =? 0)) = VI CBool z) by (intros z [-> | ->]; reflexivity).
  (* the cases of the folding *)
  assert (X : (exists x y, pint a = Some x /\ pint c = Some y /\
                 or_node o a c r = EInt (DInt 32) (if and_or o (negb (x =? 0)) (negb (y =? 0)) then 1 else 0)) \/
    (exists x e, pint a = Some x /\ or_node o a c r = e /\
       ((negb (x =? 0) = match o with And => true | _ => false end /\ cast DBool c = Ok e) \/
        (negb (x =? 0) = match o with And => false | _ => true end /\ cast DBool a = Ok e))) \/
    (exists y e, pint c = Some y /\ or_node o a c r = e /\
       ((negb (y =? 0) = match o with And => true | _ => false end /\ cast DBool a = Ok e) \/
        (negb (y =? 0) = match o with And => false | _ => true end /\ cast DBool c = Ok e))) \/
    or_node o a c r = EBin o a c).
  { destruct Ho as [-> | ->]; cbn [fold] in HF; unfold fold_and, fold_or in HF; destruct (pint a) as [x|] eqn:Pa, (pint c) as [y|] eqn:Pc.
    - injection HF as <-. left. exists x, y. auto.
    - right; left. unfold some in HF. destruct (negb (x =? 0)) eqn:T; destruct (cast DBool _) as [e| | |] eqn:C; try discriminate HF; injection HF as <-; exists x, e; auto 8.
    - right; right; left. unfold some in HF. destruct (negb (y =? 0)) eqn:T; destruct (cast DBool _) as [e| | |] eqn:C; try discriminate HF; injection HF as <-; exists y, e; auto 8.
    - injection HF as <-. auto.
    - injection HF as <-. left. exists x, y. auto.
    - right; left. unfold some in HF. destruct (negb (x =? 0)) eqn:T; destruct (cast DBool _) as [e| | |] eqn:C; try discriminate HF; injection HF as <-; exists x, e; auto 8.
    - right; right; left. unfold some in HF. destruct (negb (y =? 0)) eqn:T; destruct (cast DBool _) as [e| | |] eqn:C; try discriminate HF; injection HF as <-; exists y, e; auto 8.
    - injection HF as <-. auto. }
  clear HF.
  (* the value of the unfolded expression *)
  assert (V : forall v, eval env (EBin o P Q) = Ok v -> exists x, eval env P = Ok (VI CBool x) /\ (x = 0 \/ x = 1) /\
     ((negb (x =? 0) = match o with And => false | _ => true end /\ v = VI CBool x) \/
      (negb (x =? 0) = match o with And => true | _ => false end /\ exists y, eval env Q = Ok (VI CBool y) /\ (y = 0 \/ y = 1) /\ v = VI CBool y))).
  { intros v E. apply eval_logic in E; [|assumption]. destruct E as (p & Ep & E).
    destruct (sim_bool_inv env P a p Sa Ep) as (x & _ & -> & Hx & _). exists x. split; [assumption|]. split; [assumption|].
    cbn [truthy] in E. destruct E as [[T ->]|[T (q & Eq & ->)]].
    - left. split; [assumption|]. rewrite TV by assumption. reflexivity.
    - right. split; [assumption|]. destruct (sim_bool_inv env Q c q Sc Eq) as (y & _ & -> & Hy & _). exists y.
      repeat (split; [assumption|]). cbn. apply TV, Hy. }
  assert (SUB : forall e W, sim env DBool W e /\ dt e = DBool ->
     (forall v, eval env (EBin o P Q) = Ok v -> exists v', eval env e = Ok v' /\ rel DBool v DBool v') ->
     sim env DBool (EBin o P Q) e /\ lit01 e).
  { intros e W [(_ & L & _) D] H. split; [|apply lits01; assumption]. split; [left; exact D|]. split; [exact L|]. rewrite D. exact H. }
  destruct X as [(x & y & Pa & Pc & ->)|[(x & e & Pa & -> & X)|[(y & e & Pc & -> & X)| ->]]].
  - split.
    2:{ intros d z [= <- <-]. destruct (and_or _ _ _); auto. }
    split; [right; auto|]. split. { intros d z [= <- <-]. right. split; [auto|]. destruct (and_or _ _ _); unfold int64, two63; lia. }
    intros v E. destruct (V v E) as (x0 & Ep & Hx & E').
    destruct (sim_bool_inv env P a _ Sa Ep) as (x1 & _ & [= <-] & _ & _ & _ & _ & _ & A). specialize (A x Pa). subst x0.
    set (k := and_or o (negb (x =? 0)) (negb (y =? 0))).
    assert (Y : v = VI CBool (if k then 1 else 0)).
    { destruct E' as [[T ->]|[T (y0 & Eq & Hy & ->)]].
      - unfold k, and_or. destruct Ho as [-> | ->]; rewrite T; cbn; destruct Hx as [-> | ->]; try discriminate T; reflexivity.
      - destruct (sim_bool_inv env Q c _ Sc Eq) as (y1 & _ & [= <-] & _ & _ & _ & _ & _ & B). specialize (B y Pc). subst y0.
        unfold k, and_or. destruct Ho as [-> | ->]; rewrite T; cbn; destruct Hy as [-> | ->]; reflexivity. }
    rewrite Y. exists (VI s32 (if k then 1 else 0)). split; [destruct k; reflexivity|]. constructor. destruct k; auto.
  - destruct X as [[T C]|[T C]].
    + pose proof (cast_bool_sim env Q c e Sc Lc1 C) as S2. apply (SUB e Q S2). intros v E. destruct S2 as [(_ & _ & S2) D]. rewrite D in S2.
      destruct (V v E) as (x0 & Ep & Hx & E').
      destruct (sim_bool_inv env P a _ Sa Ep) as (x1 & _ & [= <-] & _ & _ & _ & _ & _ & A). specialize (A x Pa). subst x0.
      destruct E' as [[T' _]|[_ (y & Eq & _ & ->)]]; [rewrite T in T'; destruct Ho as [-> | ->]; discriminate T'|]. apply S2, Eq.
    + pose proof (cast_bool_sim env P a e Sa La1 C) as S2. apply (SUB e P S2). intros v E. destruct S2 as [(_ & _ & S2) D]. rewrite D in S2.
      destruct (V v E) as (x0 & Ep & Hx & E').
      destruct (sim_bool_inv env P a _ Sa Ep) as (x1 & _ & [= <-] & _ & _ & _ & _ & _ & A). specialize (A x Pa). subst x0.
      destruct E' as [[_ ->]|[T' _]]; [apply S2, Ep|rewrite T in T'; destruct Ho as [-> | ->]; discriminate T'].
  - destruct X as [[T C]|[T C]].
    + pose proof (cast_bool_sim env P a e Sa La1 C) as S2. apply (SUB e P S2). intros v E. destruct S2 as [(_ & _ & S2) D]. rewrite D in S2.
      destruct (V v E) as (x & Ep & Hx & E'). destruct (S2 _ Ep) as (w & Ew & Rw). exists w. split; [assumption|].
      destruct E' as [[_ ->]|[T' (y0 & Eq & Hy & ->)]]; [assumption|].
      destruct (sim_bool_inv env Q c _ Sc Eq) as (y1 & _ & [= <-] & _ & _ & _ & _ & _ & B). specialize (B y Pc). subst y0.
      assert (x = y) as <-; [|assumption].
      rewrite <- T' in T. destruct Hx as [-> | ->], Hy as [-> | ->]; try reflexivity; discriminate T.
    + pose proof (cast_bool_sim env Q c e Sc Lc1 C) as S2. apply (SUB e Q S2). intros v E. destruct S2 as [(N2 & L2 & S2) D]. rewrite D in S2.
      destruct (V v E) as (x & Ep & Hx & E'). destruct E' as [[T' ->]|[_ (y0 & Eq & Hy & ->)]]; [|apply S2, Eq].
      (* the left operand decides: the constant has the same value *)
      assert (Hy := Lc1 (dt c) y (pint_eq _ _ Pc)).
      assert (x = y) as ->. { rewrite <- T' in T. destruct Hx as [-> | ->], Hy as [-> | ->]; try reflexivity; discriminate T. }
      exists (VI CBool y). split; [|constructor; assumption].
      assert (e = EInt DBool y) as ->.
      { apply pint_eq in Pc. rewrite Pc in C. unfold cast in C. cbn [dt] in C. destruct (dtype_eqb (dt c) DBool) eqn:Q1.
        - apply dtype_eqb_eq in Q1. congruence.
        - cbn in C. destruct (y <? 0); [discriminate C|congruence]. }
      destruct Hy as [-> | ->]; reflexivity.
  - split; [|discriminate]. split; [left; destruct Ho as [-> | ->]; reflexivity|]. split; [discriminate|].
    intros v E. destruct (V v E) as (x & Ep & Hx & E').
    destruct (sim_bool_inv env P a _ Sa Ep) as (x1 & x' & [= <-] & _ & Ea & _ & Tx & _ & _). cbn [truthy] in Tx.
    assert (dt (EBin o a c) = DBool) as -> by (destruct Ho as [-> | ->]; reflexivity).
    exists v. destruct E' as [[T ->]|[T (y & Eq & Hy & ->)]].
    + split; [|constructor; assumption]. destruct Ho as [-> | ->]; cbn [eval]; rewrite Ea; cbn [bind]; rewrite Tx, T; destruct Hx as [-> | ->]; try discriminate T; reflexivity.
    + destruct (sim_bool_inv env Q c _ Sc Eq) as (y1 & y' & [= <-] & _ & Ec & _ & Ty & _ & _). cbn [truthy] in Ty.
      split; [|constructor; assumption]. destruct Ho as [-> | ->]; cbn [eval]; rewrite Ea; cbn [bind]; rewrite Tx, T, Ec; cbn [bind]; rewrite Ty, TV by assumption; reflexivity.
Qed.

Lemma not_sim env P a e : sim env DBool P a -> build_not a = Ok e -> sim env DBool (ENot P) e /\ dt e = DBool.
Proof.
  intros Sa B. unfold build_not in B. destruct (boolish (dt a)); [|discriminate B].
  assert (V : forall v, eval env (ENot P) = Ok v -> exists x v', eval env P = Ok (VI CBool x) /\ eval env a = Ok v' /\
    truthy v' = negb (x =? 0) /\ agree a x /\ v = vbool (x =? 0)).
  { cbn [eval]. intros v E. destruct (eval env P) as [p| | |] eqn:Ep; cbn in E; try discriminate. injection E as <-.
    destruct (sim_bool_inv env P a p Sa Ep) as (x & v' & -> & Hx & Ea & _ & T & _ & A). exists x, v'. cbn [truthy] in *. rewrite negb_involutive. auto. }
  assert (K : forall k : bool, rel DBool (vbool k) DBool (vbool k)) by (intros k; constructor; destruct k; auto).
  destruct (pint a) as [x|] eqn:Pa.
  - assert (e = EInt DBool (if x =? 0 then 1 else 0)) as -> by (destruct (x =? 0); cbn in B; congruence).
    split; [|reflexivity]. split; [left; reflexivity|]. split. { intros d z [= <- <-]. left. split; [reflexivity|]. destruct (x =? 0); auto. }
    intros v E. destruct (V v E) as (x0 & v' & _ & _ & _ & A & ->). rewrite <- (A x Pa). exists (vbool (x =? 0)).
    split; [destruct (x =? 0); reflexivity|apply K].
  - injection B as <-. split; [|reflexivity]. split; [left; reflexivity|]. split; [discriminate|].
    intros v E. destruct (V v E) as (x0 & v' & _ & Ea & T & _ & ->). exists (vbool (x0 =? 0)). split; [|apply K].
    cbn [eval]. rewrite Ea. cbn [bind]. rewrite T, negb_involutive. reflexivity.
Qed.
(** ** Whole expressions *)
Lemma join_std t u : std_type t -> std_type u -> std_type (join t u).
Proof. unfold std_type. intros [-> |[-> |[-> | ->]]] [-> |[-> |[-> | ->]]]; cbn; auto. Qed.

Lemma dt_bin o P Q : is_cmp o = false -> is_logic o = false -> dt (EBin o P Q) = dt P.
Proof. destruct o; cbn; intros; try discriminate; reflexivity. Qed.
Lemma dt_cmp o P Q : is_cmp o = true -> dt (EBin o P Q) = DBool.
Proof. destruct o; cbn; intros; try discriminate; reflexivity. Qed.

Lemma plain_std s : supported s -> std_type (dt (plain s)).
Proof.
  induction s as [d v|x|d n|o a IHa b IHb|a IHa|c IHc a IHa b IHb]; cbn [supported plain].
  - intros (H & _). exact H.
  - intros _. unfold std_type. cbn. auto.
  - auto.
  - intros (Ha & Hb & H). specialize (IHa Ha). specialize (IHb Hb). pose proof (join_std _ _ IHa IHb) as J.
    destruct (is_logic o) eqn:Lo; [left; destruct o; try discriminate Lo; reflexivity|].
    destruct (is_cmp o) eqn:Co; [left; destruct o; try discriminate Co; reflexivity|].
    destruct o; try discriminate Lo; try discriminate Co; cbn [dt]; rewrite dt_to; try exact J. unfold std_type. auto.
  - intros _. left. reflexivity.
  - intros (Hc & Ha & Hb & H). cbn [dt]. rewrite dt_to. apply join_std; auto.
Qed.

Lemma match_lit01 p q a b a' b' : dt p = DBool -> dt q = DBool -> near (dt p) (dt a) -> near (dt q) (dt b) -> lit01 a -> lit01 b ->
  match_types a b = Ok (a', b') -> lit01 a' /\ lit01 b'.
Proof.
  intros -> -> Na Nb La Lb. unfold match_types.
  destruct Na as [Na|[_ Na]], Nb as [Nb|[_ Nb]]; rewrite Na, Nb; cbn; intros [= <- <-]; auto; unfold simple_cast; rewrite Na, Nb; cbn;
    split; try assumption; discriminate.
Qed.

Lemma widens_f64 t : std_type t -> t <> DBool -> widens t DF64.
Proof. unfold widens. intros [-> |[-> |[-> | ->]]] H; auto 8. Qed.
Lemma to_f64 t e : dt e = t -> t = DF64 -> to DF64 e = e.
Proof. intros <- H. unfold to. rewrite H. reflexivity. Qed.

Lemma build_gen same o a b e : is_logic o = false -> o <> Div -> build same o a b = Ok e ->
  exists a' b' r, match_types a b = Ok (a', b') /\ fold same o a' b' = Ok r /\ e = or_node o a' b' r /\
    (is_bit o = true -> is_float (dt a) = false /\ is_float (dt b) = false).
Proof.
  intros Lo Nd. unfold build.
  assert (G : (let! (a', b') := match_types a b in let! r := fold same o a' b' in Ok (or_node o a' b' r)) = Ok e ->
    exists a' b' r, match_types a b = Ok (a', b') /\ fold same o a' b' = Ok r /\ e = or_node o a' b' r).
  { destruct (match_types a b) as [[a' b']| | |]; cbn; try discriminate.
    destruct (fold same o a' b') as [r| | |] eqn:F; cbn; try discriminate. intros [= <-]. eauto 8. }
  destruct o; try discriminate Lo; try congruence; intros H;
   try (destruct (G H) as (a' & b' & r & ? & ? & ?); exists a', b', r; repeat (split; [assumption|]); discriminate);
   destruct (is_float (dt a)) eqn:Fa, (is_float (dt b)) eqn:Fb; cbn [negb andb] in H; try discriminate H;
   destruct (G H) as (a' & b' & r & ? & ? & ?); exists a', b', r; repeat (split; [assumption|]); auto.
Qed.

Lemma sim_arith env same o P Q a c r t : (forall u v, same u v = true -> u = v) ->
  std_type t -> t <> DBool -> (o = Shl -> t = DInt 64) -> (o = Mod -> t <> DF64) -> (is_bit o = true -> t <> DF64) ->
  (o = Div -> t = DF64) -> is_logic o = false -> is_cmp o = false -> dt P = t -> dt Q = t ->
  sim env t P a -> sim env t Q c -> (forall x, eval env (EBin o P Q) = Ok (VF x) -> finite_double x) ->
  fold same o a c = Ok r -> sim env t (EBin o P Q) (or_node o a c r).
Proof.
  intros HS St NB Hshl Hmod Hbit Hdiv Lo Co DP DQ Sa Sc Fin HF.
  destruct St as [-> |[-> |[-> | ->]]]; [contradiction| | |].
  - apply fold_int_sim with same; auto.
    + destruct o; try reflexivity; try discriminate; try (specialize (Hdiv eq_refl); discriminate).
    + intros _ ->. specialize (Hshl eq_refl). discriminate.
  - apply fold_int_sim with same; auto.
    + destruct o; try reflexivity; try discriminate; try (specialize (Hdiv eq_refl); discriminate).
    + discriminate.
  - apply fold_flt_sim with same; auto.
    destruct o; try reflexivity; try discriminate; try (exfalso; apply Hmod; reflexivity); exfalso; apply Hbit; reflexivity.
Qed.

Lemma compile_sim same env s : (forall u v, same u v = true -> u = v) ->
  forall e, supported s -> good_env env s -> compile same s = Ok e ->
  sim env (dt (plain s)) (plain s) e /\ (dt (plain s) = DBool -> lit01 e).
Proof.
  intros HS. induction s as [d v|x|d n|o a IHa b IHb|a IHa|c IHc a IHa b IHb]; intros e SU GE CO.
  - cbn [compile plain dt] in *. destruct SU as (St & Nf & Cv & Nm).
    assert (e = EInt d v) as -> by (unfold mk_int in CO; destruct d; [|destruct (v <? 0)|]; congruence).
    assert (L : lit_ok d v).
    { destruct St as [-> |[-> |[-> | ->]]]; [left|right|right|contradiction].
      - split; [reflexivity|]. cbn in Cv. destruct (v =? 0); auto.
      - split; [auto|]. apply int64_range, range_32_64. rewrite <- Cv. apply conv_range. lia.
      - split; [auto|]. apply int64_range. rewrite <- Cv. apply conv_range. lia. }
    split.
    2:{ intros ->. apply lits01; [|reflexivity]. intros d z [= <- <-]. exact L. }
    split; [left; reflexivity|]. split. { intros d0 z [= <- <-]. exact L. }
    cbn [eval dt]. intros v0 [= <-]. exists (lit d v). split; [reflexivity|].
    destruct St as [-> |[-> |[-> | ->]]]; [| | |contradiction].
    + destruct L as [[_ L]|[[L|L] _]]; try discriminate L. destruct L as [-> | ->]; constructor; auto.
    + assert (R : range 32 v) by (rewrite <- Cv; apply conv_range; lia).
      assert (lit (DInt 32) v = VI s32 v) as ->.
      { unfold lit. change (32 =? 32) with true. cbv iota. destruct (Z.ltb_spec (Z.abs v) (2 ^ 31)); [reflexivity|].
        unfold range in R. change (32 - 1) with 31 in R. specialize (Nm eq_refl). lia. }
      constructor; auto.
    + assert (lit (DInt 64) v = VI s64 v) as -> by (unfold lit; cbn [Z.eqb]; cbn [ctype] in Cv; rewrite Cv; reflexivity).
      constructor. rewrite <- Cv. apply conv_range. lia.
  - cbn [compile plain dt] in *. injection CO as <-. cbn [supported] in SU. split; [|discriminate].
    split; [left; reflexivity|]. split; [discriminate|]. cbn [eval]. rewrite flit_finite by assumption.
    intros v [= <-]. exists (VF x). split; [reflexivity|]. constructor; auto using feq_refl.
  - cbn [compile plain dt supported good_env] in *. injection CO as <-. split; [|discriminate].
    split; [left; reflexivity|]. split; [discriminate|]. cbn [eval dt]. intros v E. exists v. split; [exact E|].
    specialize (GE v E). destruct SU as [-> |[-> |[-> | ->]]], v as [t z|x]; cbn in GE; try contradiction.
    + destruct GE as [-> Cv]. cbn in Cv. constructor. destruct (z =? 0); auto.
    + destruct GE as [-> Cv]. constructor; [|auto]. rewrite <- Cv. apply conv_range. lia.
    + destruct GE as [-> Cv]. constructor. rewrite <- Cv. apply conv_range. lia.
    + constructor; auto using feq_refl.
  - cbn [compile] in CO. destruct SU as (Ua & Ub & U). destruct GE as (Ga & Gb & Fin).
    cbv zeta in U.
    destruct (compile same a) as [a'| | |]; cbn [bind] in CO; try discriminate.
    destruct (compile same b) as [b'| | |]; cbn [bind] in CO; try discriminate.
    destruct (IHa a' Ua Ga eq_refl) as [Sa La]. destruct (IHb b' Ub Gb eq_refl) as [Sb Lb].
    pose proof (plain_std a Ua) as Ta. pose proof (plain_std b Ub) as Tb. clear IHa IHb.
    cbn [plain] in Fin |- *. set (p := plain a) in *. set (q := plain b) in *. set (t := join (dt p) (dt q)) in *.
    assert (Tt : std_type t) by (apply join_std; assumption).
    destruct (is_logic o) eqn:Lo.
    { assert (Ho : o = And \/ o = Or) by (destruct o; try discriminate Lo; auto).
      destruct U as [Dp Dq]. rewrite Dp in *. rewrite Dq in *.
      assert (B : exists r, fold same o a' b' = Ok r /\ e = or_node o a' b' r).
      { unfold build in CO. destruct Ho as [-> | ->]; destruct (boolish (dt a') && boolish (dt b')); try discriminate CO;
          match type of CO with context [bind (fold ?s ?o ?x ?y)] => destruct (fold s o x y) as [r| | |] end; cbn in CO; try discriminate CO;
          injection CO as <-; eauto. }
      destruct B as (r & HF & ->).
      assert (dt (EBin o p q) = DBool) as -> by (destruct Ho as [-> | ->]; reflexivity).
      destruct (logic_sim env same o p q a' b' r Ho Sa Sb (La eq_refl) (Lb eq_refl) HF) as [S L]. auto. }
    destruct (is_cmp o) eqn:Co.
    { destruct (build_gen same o a' b' e Lo) as (a1 & b1 & r & M & HF & -> & _); [destruct o; discriminate|assumption|].
      destruct (match_sim env p q a' b' a1 b1 Ta Tb Sa Sb M) as (_ & _ & S1 & S2).
      assert ((match o with Div => EBin Div (to DF64 (to t p)) (to DF64 (to t q)) | _ => EBin o (to t p) (to t q) end) = EBin o (to t p) (to t q)) as ->
        by (destruct o; try discriminate Co; reflexivity).
      rewrite dt_cmp by assumption.
      pose proof (cmp_sim env same o t (to t p) (to t q) a1 b1 r Co S1 S2 HF) as S. split; [exact S|]. intros _.
      destruct S as (_ & L & _). unfold fold in HF.
      assert (HF' : fold_cmp o a1 b1 = Ok r) by (destruct o; try discriminate Co; exact HF).
      assert (D : dt (or_node o a1 b1 r) = DBool).
      { destruct r as [r|]; cbn [or_node]; [|apply dt_cmp, Co]. unfold fold_cmp in HF'.
        destruct (pint a1), (pint b1); cbn in HF'; try (destruct (zcmp o z z0); cbn in HF'; injection HF' as <-; reflexivity);
          destruct (pflt a1), (pflt b1); cbn in HF'; try discriminate HF'; destruct (fcmp _ _ _); cbn in HF'; injection HF' as <-; reflexivity. }
      apply lits01; assumption. }
    assert (NB : t <> DBool) by (destruct o; try discriminate Lo; try discriminate Co; cbv iota in U; try (rewrite U; discriminate); tauto).
    assert (DD : o = Div \/ o <> Div) by (destruct o; auto; right; discriminate). destruct DD as [-> |ND].
    { unfold build in CO. destruct (match_types a' b') as [[a1 b1]| | |] eqn:M; cbn [bind] in CO; try discriminate.
      destruct (match_sim env p q a' b' a1 b1 Ta Tb Sa Sb M) as (_ & _ & S1 & S2).
      destruct (cast DF64 a1) as [a2| | |] eqn:C1; cbn [bind] in CO; try discriminate.
      destruct (cast DF64 b1) as [b2| | |] eqn:C2; cbn [bind] in CO; try discriminate.
      destruct (fold same Div a2 b2) as [r| | |] eqn:HF; cbn [bind] in CO; try discriminate. injection CO as <-.
      destruct (conv_sim env t DF64 (to t p) a1 a2 (dt_to _ _) S1 (widens_f64 t Tt NB) Tt) as [S3 D3]; [discriminate|auto|].
      destruct (conv_sim env t DF64 (to t q) b1 b2 (dt_to _ _) S2 (widens_f64 t Tt NB) Tt) as [S4 D4]; [discriminate|auto|].
      cbn [dt]. rewrite dt_to. split; [|discriminate].
      apply sim_arith with same; auto; try discriminate; try apply dt_to. unfold std_type. auto. }
    destruct (build_gen same o a' b' e Lo ND CO) as (a1 & b1 & r & M & HF & -> & HB).
    destruct (match_sim env p q a' b' a1 b1 Ta Tb Sa Sb M) as (_ & _ & S1 & S2).
    assert (XX : (match o with Div => EBin Div (to DF64 (to t p)) (to DF64 (to t q)) | _ => EBin o (to t p) (to t q) end) = EBin o (to t p) (to t q))
        by (destruct o; try congruence; reflexivity).
    rewrite XX in *. rewrite dt_bin, dt_to by assumption. split; [|contradiction].
    apply sim_arith with same; auto; try apply dt_to.
    + intros ->. exact U.
    + intros ->. apply U.
    + intros Hb Et. specialize (HB Hb). destruct Sa as (Na & _ & _), Sb as (Nb & _ & _).
      assert (K : dt p = DF64 \/ dt q = DF64).
      { unfold t in Et. destruct (dt p), (dt q); cbn in Et; try discriminate Et; auto. }
      destruct K as [K|K]; rewrite K in *; [apply near_flt in Na; rewrite Na in HB|apply near_flt in Nb; rewrite Nb in HB]; destruct HB; discriminate.
    + intros ->. congruence.
  - cbn [compile] in CO. destruct SU as (Ua & D). cbn [good_env] in GE. destruct (compile same a) as [a'| | |]; cbn [bind] in CO; try discriminate.
    destruct (IHa a' Ua GE eq_refl) as [Sa La]. cbn [plain dt]. rewrite D in Sa.
    destruct (not_sim env (plain a) a' e Sa CO) as [S De]. split; [exact S|]. intros _. destruct S as (_ & L & _). apply lits01; assumption.
  - cbn [compile] in CO. destruct SU as (Uc & Ua & Ub & D). destruct GE as (Gc & Ga & Gb).
    destruct (compile same c) as [c'| | |]; cbn [bind] in CO; try discriminate.
    destruct (compile same a) as [a'| | |]; cbn [bind] in CO; try discriminate.
    destruct (compile same b) as [b'| | |]; cbn [bind] in CO; try discriminate.
    destruct (IHc c' Uc Gc eq_refl) as [Sc _]. destruct (IHa a' Ua Ga eq_refl) as [Sa La]. destruct (IHb b' Ub Gb eq_refl) as [Sb Lb].
    pose proof (plain_std a Ua) as Ta. pose proof (plain_std b Ub) as Tb. clear IHa IHb IHc.
    cbn [plain]. set (p := plain a) in *. set (q := plain b) in *. set (t := join (dt p) (dt q)) in *. rewrite D in Sc.
    unfold build_sel in CO. destruct (dtype_eqb (dt c') DBool) eqn:Dc; [|discriminate CO].
    destruct (match_types a' b') as [[a1 b1]| | |] eqn:M; cbn [bind] in CO; try discriminate.
    destruct (match_sim env p q a' b' a1 b1 Ta Tb Sa Sb M) as (N1 & D1 & S1 & S2). fold t in N1, S1, S2.
    assert (dt (ESel (plain c) (to t p) (to t q)) = t) as -> by (cbn [dt]; apply dt_to).
    assert (L01 : t = DBool -> lit01 a1 /\ lit01 b1).
    { intros Et. assert (K : dt p = DBool /\ dt q = DBool).
      { unfold t in Et. destruct Ta as [E1|[E1|[E1|E1]]], Tb as [E2|[E2|[E2|E2]]]; rewrite E1, E2 in Et; cbn in Et; try discriminate Et; auto. }
      destruct K as [K1 K2]. destruct Sa as (Na & _ & _), Sb as (Nb & _ & _).
      apply (match_lit01 p q a' b' a1 b1 K1 K2 Na Nb (La K1) (Lb K2) M). }
    assert (V : forall v, eval env (ESel (plain c) (to t p) (to t q)) = Ok v -> exists x w, eval env c' = Ok w /\ truthy w = negb (x =? 0) /\ agree c' x /\
       if x =? 0 then eval env (to t q) = Ok v else eval env (to t p) = Ok v).
    { cbn [eval]. intros v E. destruct (eval env (plain c)) as [k| | |] eqn:Ek; cbn [bind] in E; try discriminate E.
      destruct (sim_bool_inv env (plain c) c' k Sc Ek) as (x & w & -> & _ & Ec & _ & T & _ & A). cbn [truthy] in *.
      exists x, w. repeat (split; [assumption|]). destruct (x =? 0); exact E. }
    destruct S1 as (_ & L1 & V1), S2 as (N2 & L2 & V2).
    destruct (pint c') as [k|] eqn:Pc.
    + injection CO as <-. destruct (Z.eqb_spec k 0) as [->|Nk]; cbn [negb].
      * split; [|intros Et; apply L01, Et]. split; [exact N2|]. split; [exact L2|]. intros v E.
        destruct (V v E) as (x & w & _ & _ & A & E'). rewrite <- (A 0 Pc) in E'. apply V2, E'.
      * split; [|intros Et; apply L01, Et]. split; [exact N1|]. split; [exact L1|]. intros v E.
        destruct (V v E) as (x & w & _ & _ & A & E'). rewrite <- (A k Pc) in E'. destruct (Z.eqb_spec k 0); [contradiction|]. apply V1, E'.
    + injection CO as <-. split; [|intros _; discriminate]. split; [exact N1|]. split; [discriminate|]. intros v E. cbn [dt].
      destruct (V v E) as (x & w & Ec & T & _ & E'). cbn [eval]. rewrite Ec. cbn [bind]. rewrite T. destruct (x =? 0); cbn [negb].
      * rewrite <- D1. apply V2, E'.
      * apply V1, E'.
Qed.

Lemma rel_same d v d' v' : rel d v d' v' -> same_value v v'.
Proof. intros []; cbn; auto. Qed.

Lemma compile_preserves same env s e v : (forall u w, same u w = true -> u = w) ->
  supported s -> good_env env s -> compile same s = Ok e -> eval env (plain s) = Ok v ->
  exists v', eval env e = Ok v' /\ same_value v v'.
Proof.
  intros HS SU GE CO E. destruct (compile_sim same env s HS e SU GE CO) as [(_ & _ & S) _].
  destruct (S v E) as (v' & E' & R). exists v'. split; [exact E'|]. apply rel_same in R. exact R.
Qed.
(** ** Folding does not fail when every part of the expression evaluates *)
Lemma int_meaning env o b P Q a c v : b = 32 \/ b = 64 -> int_opb o = true ->
  dt P = DInt b -> dt Q = DInt b -> sim env (DInt b) P a -> sim env (DInt b) Q c ->
  eval env (EBin o P Q) = Ok v ->
  exists x y z, range b x /\ range b y /\ range b z /\ agree a x /\ agree c y /\ zm o b x y z.
Proof.
  intros Hb Ho DP DQ Sa Sc E. destruct (arith_op o) eqn:Ao.
  - destruct (int_sim_bin o Ao) as (N1 & N2 & N3 & N4).
    apply eval_bin in E; try assumption. destruct E as (p & q & Ep & Eq & E).
    destruct (sim_int_inv env b P a p Hb Sa Ep) as (x & t & -> & Rx & Ea & T & T64 & Ga).
    destruct (sim_int_inv env b Q c q Hb Sc Eq) as (y & u & -> & Ry & Ec & U & U64 & Gc).
    cbn [bin_op] in E. destruct (int_ref o b x y v Hb Rx Ry Ao E) as (z & -> & Rz & M).
    exists x, y, z. repeat (split; [assumption|]). left. exact M.
  - assert (Ho' : o = Min \/ o = Max) by (destruct o; try discriminate Ho; auto; discriminate Ao).
    apply eval_minmax in E; [|assumption]. destruct E as (p & p' & q & q' & Ep & Cp & Eq & Cq & E).
    destruct (sim_int_inv env b P a p Hb Sa Ep) as (x & t & -> & Rx & Ea & T & T64 & Ga).
    destruct (sim_int_inv env b Q c q Hb Sc Eq) as (y & u & -> & Ry & Ec & U & U64 & Gc).
    exists x, y, (match o with Min => Z.min x y | _ => Z.max x y end). repeat (split; [assumption|]).
    split. { unfold range in *. destruct Ho' as [-> | ->]; lia. }
    repeat (split; [assumption|]). destruct Ho' as [-> | ->]; [right; left|right; right]; auto.
Qed.

Lemma flt_meaning env o P Q a c v : flt_opb o = true ->
  sim env DF64 P a -> sim env DF64 Q c -> eval env (EBin o P Q) = Ok v ->
  exists x y z, agreeF a x /\ agreeF c y /\ flt_op o x y = Ok (VF z).
Proof.
  intros Ao Sa Sc E. destruct (flt_opb_bin o Ao) as (N1 & N2 & N3 & N4).
  apply eval_bin in E; try assumption. destruct E as (p & q & Ep & Eq & E).
  destruct (sim_flt_inv env P a p Sa Ep) as (x & x' & -> & Ea & Fx & Fx' & Qx & Ga).
  destruct (sim_flt_inv env Q c q Sc Eq) as (y & y' & -> & Ec & Fy & Fy' & Qy & Gc).
  cbn [bin_op] in E. destruct (flt_op_feq o x x' y y' v Ao Qx Qy E) as (z & z' & -> & E' & Qz).
  exists x', y', z'. auto.
Qed.

Lemma chk64_ok' v : range 64 v -> chk64 v = Ok v.
Proof.
  intros R. unfold chk64. assert (int64b v = true) as ->; [|reflexivity].
  unfold range in R. change (64 - 1) with 63 in R. unfold int64b, two63. lia.
Qed.

Lemma fold_int_ok same o b a c x y z : b = 32 \/ b = 64 -> int_opb o = true -> dt a = DInt b -> dt c = DInt b ->
  range b x -> range b y -> range b z -> agree a x -> agree c y -> zm o b x y z -> (b = 32 -> o <> Shl) ->
  exists r, fold same o a c = Ok r.
Proof.
  intros Hb Ho Da Dc Rx Ry Rz A B M NS.
  assert (Fa : pflt a = None) by (apply pflt_none; rewrite Da; discriminate).
  assert (Fc : pflt c = None) by (apply pflt_none; rewrite Dc; discriminate).
  assert (Rz' : range 64 z) by (destruct Hb as [-> | ->]; auto using range_32_64).
  assert (Rx' : range 64 x) by (destruct Hb as [-> | ->]; auto using range_32_64).
  assert (Ry' : range 64 y) by (destruct Hb as [-> | ->]; auto using range_32_64).
  assert (IX : is_index (DInt b) = true) by (destruct Hb as [-> | ->]; reflexivity).
  destruct o; try discriminate Ho; cbn [fold].
  - unfold fold_add. rewrite !isint_pint, !isflt_pflt, Fa, Fc. destruct (pint a) as [u|] eqn:Pa, (pint c) as [v|] eqn:Pc.
    + zmd M. rewrite (A u Pa), (B v Pc), <- M, chk64_ok' by assumption. rewrite Da. cbn. eauto.
    + destruct (u =? 0); eauto.
    + destruct (v =? 0); [eauto|]. eauto.
    + eauto.
  - unfold fold_sub. rewrite !isint_pint, !isflt_pflt, Fa, Fc. destruct (pint a) as [u|] eqn:Pa, (pint c) as [v|] eqn:Pc.
    + zmd M. rewrite (A u Pa), (B v Pc), <- M, chk64_ok' by assumption. rewrite Da. cbn. eauto.
    + eauto.
    + destruct (v =? 0); [eauto|]. eauto.
    + eauto.
  - unfold fold_mul. rewrite !isint_pint, !isflt_pflt, Fa, Fc. destruct (pint a) as [u|] eqn:Pa, (pint c) as [v|] eqn:Pc.
    + zmd M. rewrite (A u Pa), (B v Pc), <- M, chk64_ok' by assumption. rewrite Da. cbn. eauto.
    + destruct (u =? 1); [eauto|]. destruct (u =? 0); [eauto|]. eauto.
    + destruct (v =? 1); [eauto|]. destruct (v =? 0); [eauto|]. eauto.
    + eauto.
  - unfold fold_mod. rewrite !isint_pint, Da, Dc, IX. cbn [andb]. zmd M. destruct M as (N & NM & Mz).
    destruct (pint a) as [u|] eqn:Pa, (pint c) as [v|] eqn:Pc.
    + rewrite (A u Pa), (B v Pc). destruct (Z.eqb_spec y 0); [contradiction|]. unfold crem64. destruct (Z.eqb_spec y 0); [contradiction|].
      destruct (_ && _) eqn:Q; [|cbn; eauto]. exfalso. apply andb_prop in Q. destruct Q as [Q1 Q2]. apply Z.eqb_eq in Q1, Q2.
      apply NM. split; [|assumption]. unfold two63 in Q1. destruct Hb as [-> | ->]; [|exact Q1].
      unfold range in Rx. change (32 - 1) with 31 in *. lia.
    + destruct (u =? 0); eauto.
    + destruct (v =? 1); [cbn; eauto|]. rewrite (B v Pc). destruct (Z.eqb_spec y 0); [contradiction|eauto].
    + eauto.
  - unfold fold_floordiv. rewrite !isint_pint, !isflt_pflt, Fa, Da, Dc. cbn [is_int]. zmd M. destruct M as (_ & N & Mz).
    rewrite Fc.
    destruct (pint a) as [u|] eqn:Pa, (pint c) as [v|] eqn:Pc.
    + rewrite (A u Pa), (B v Pc), Mz. destruct (Z.eqb_spec y 0); [contradiction|]. cbn. eauto.
    + destruct (u =? 0); [cbn; eauto|]. eauto.
    + rewrite (B v Pc). destruct (Z.eqb_spec y 0); [contradiction|]. eauto.
    + eauto.
  - unfold fold_floormod. rewrite !isint_pint, Da, Dc, IX. cbn [andb is_int]. zmd M. destruct M as (_ & N & Mz).
    destruct (pint a) as [u|] eqn:Pa, (pint c) as [v|] eqn:Pc.
    + rewrite (A u Pa), (B v Pc), Mz. destruct (Z.eqb_spec y 0); [contradiction|]. cbn. eauto.
    + destruct (u =? 0); cbn; eauto.
    + destruct (v =? 1); [cbn; eauto|]. rewrite (B v Pc). destruct (Z.eqb_spec y 0); [contradiction|eauto].
    + eauto.
  - unfold fold_min. rewrite Fa, Da. destruct (pint a), (pint c); cbn; destruct (same a c); eauto.
  - unfold fold_max. rewrite Fa, Da. destruct (pint a), (pint c); cbn; destruct (same a c); eauto.
  - unfold fold_bit. rewrite Da, Dc, IX. cbn [andb dbits]. destruct Hb as [-> | ->]; [destruct (NS eq_refl eq_refl)|].
    zmd M. destruct M as (Hy & Hx & Hl & Mz).
    destruct (pint c) as [v|] eqn:Pc; [|eauto]. rewrite (B v Pc).
    assert ((0 <=? y) && (y <? 64) = true) as -> by lia. cbn [negb].
    destruct (pint a) as [u|] eqn:Pa; [|destruct (y =? 0); eauto]. rewrite (A u Pa). unfold shl64.
    assert ((x <? 0) || (two64 <=? x * 2 ^ y) = false) as ->; [|cbn; eauto].
    apply orb_false_intro; [apply Z.ltb_ge; exact Hx|apply Z.leb_gt; exact Hl].
  - unfold fold_bit. rewrite Da, Dc, IX. cbn [andb dbits]. zmd M. destruct M as (Hy & Mz).
    destruct (pint c) as [v|] eqn:Pc; [|eauto]. rewrite (B v Pc).
    assert ((0 <=? y) && (y <? b) = true) as -> by lia. cbn [negb].
    destruct (pint a) as [u|] eqn:Pa; [|destruct (y =? 0); eauto]. cbn. eauto.
  - unfold fold_bit. rewrite Da, Dc, IX. cbn [andb]. destruct (pint a), (pint c); cbn; eauto.
  - unfold fold_bit. rewrite Da, Dc, IX. cbn [andb]. destruct (pint a), (pint c); cbn; eauto.
  - unfold fold_bit. rewrite Da, Dc, IX. cbn [andb]. destruct (pint a), (pint c); cbn; eauto.
Qed.

Lemma fold_flt_ok same o a c x y z : flt_opb o = true -> dt a = DF64 -> dt c = DF64 -> lits a -> lits c ->
  agreeF a x -> agreeF c y -> flt_op o x y = Ok (VF z) -> exists r, fold same o a c = Ok r.
Proof.
  intros Ho Da Dc La Lc A B M.
  assert (Ia : pint a = None) by (apply pint_none; assumption).
  assert (Ic : pint c = None) by (apply pint_none; assumption).
  destruct o; try discriminate Ho; cbn [fold flt_op] in *.
  - unfold fold_add. rewrite !isint_pint, Ia, Ic. destruct (pflt a), (pflt c); eauto; destruct (isflt a dzero), (isflt c dzero); eauto.
  - unfold fold_sub. rewrite !isint_pint, Ia, Ic. destruct (pflt a), (pflt c); eauto; destruct (isflt c dzero); eauto.
  - unfold fold_mul. rewrite !isint_pint, Ia, Ic.
    destruct (pflt a), (pflt c); eauto; destruct (isflt a done), (isflt a dzero), (isflt c done), (isflt c dzero); eauto.
  - apply arith_div_inv in M. destruct M as [_ NZ]. unfold fold_div. rewrite !isint_pint, !isflt_pflt, Ia, Ic.
    destruct (pflt a) as [u|] eqn:Pa, (pflt c) as [v|] eqn:Pc.
    + rewrite (B v Pc), NZ. cbn. eauto.
    + destruct (SFeqb u dzero); eauto.
    + destruct (SFeqb v done); [eauto|]. rewrite (B v Pc). fold (is_zero y). rewrite NZ. eauto.
    + eauto.
  - assert (NZ : is_zero y = false).
    { destruct (is_zero y) eqn:Z; [|reflexivity]. unfold arith_floordiv, float_divmod, checked in M. rewrite Z in M. discriminate M. }
    unfold fold_floordiv. rewrite !isint_pint, !isflt_pflt, Ia, Ic.
    destruct (pflt a) as [u|] eqn:Pa, (pflt c) as [v|] eqn:Pc.
    + rewrite (A u Pa), (B v Pc), NZ. cbn [negb]. destruct (arith_floordiv x y); cbn in M; try discriminate M. cbn. eauto.
    + destruct (SFeqb u dzero); eauto.
    + rewrite (B v Pc). fold (is_zero y). rewrite NZ. eauto.
    + eauto.
  - unfold fold_floormod. rewrite Da, Dc. cbn. eauto.
Qed.

Lemma cast_ok t e : (forall b, t <> DUInt b) -> (dt e = DF64 -> t = DF64) -> exists e', cast t e = Ok e'.
Proof.
  intros Nu Hf. unfold cast. destruct (dtype_eqb (dt e) t) eqn:E; [eauto|].
  destruct e; eauto.
  - destruct t; cbn; eauto. destruct (Nu bits eq_refl).
  - cbn in Hf. rewrite (Hf eq_refl) in E. discriminate E.
Qed.
Lemma match_ok d d' a b : std_type d -> std_type d' -> near d (dt a) -> near d' (dt b) -> exists a' b', match_types a b = Ok (a', b').
Proof.
  intros Sd Sd' Na Nb.
  assert (Ta : std_type (dt a)) by (destruct Na as [-> |[_ ->]]; unfold std_type; auto).
  assert (Tb : std_type (dt b)) by (destruct Nb as [-> |[_ ->]]; unfold std_type; auto).
  assert (CI32 : forall e, dt e <> DF64 -> exists e', cast (DInt 32) e = Ok e') by (intros e H; apply cast_ok; [discriminate|congruence]).
  assert (CI64 : forall e, dt e <> DF64 -> exists e', cast (DInt 64) e = Ok e') by (intros e H; apply cast_ok; [discriminate|congruence]).
  assert (CF : forall e, exists e', cast DF64 e = Ok e') by (intros e; apply cast_ok; [discriminate|auto]).
  unfold match_types.
  destruct Ta as [Ta|[Ta|[Ta|Ta]]], Tb as [Tb|[Tb|[Tb|Tb]]]; rewrite Ta, Tb; cbn -[cast]; eauto;
   try (destruct (CI32 a) as (? & ->); [rewrite Ta; discriminate|cbn; eauto]; fail);
   try (destruct (CI32 b) as (? & ->); [rewrite Tb; discriminate|cbn; eauto]; fail);
   try (destruct (CI64 a) as (? & ->); [rewrite Ta; discriminate|cbn; eauto]; fail);
   try (destruct (CI64 b) as (? & ->); [rewrite Tb; discriminate|cbn; eauto]; fail);
   try (destruct (CF a) as (? & ->); cbn; eauto; fail); try (destruct (CF b) as (? & ->); cbn; eauto; fail).
Qed.

Lemma cast_bool_ok a : near DBool (dt a) -> lit01 a -> exists e, cast DBool a = Ok e.
Proof.
  intros N L. unfold cast. destruct (dtype_eqb (dt a) DBool) eqn:E; [eauto|]. destruct a; eauto.
  - cbn. destruct (L _ _ eq_refl) as [-> | ->]; cbn; eauto.
  - destruct N as [N|[_ N]]; discriminate N.
Qed.

Lemma arith_ok env same o t P Q a c v : std_type t -> t <> DBool -> (o = Shl -> t = DInt 64) -> (o = Mod -> t <> DF64) ->
  (is_bit o = true -> t <> DF64) -> (o = Div -> t = DF64) -> is_logic o = false -> is_cmp o = false -> dt P = t -> dt Q = t ->
  sim env t P a -> sim env t Q c -> eval env (EBin o P Q) = Ok v -> exists r, fold same o a c = Ok r.
Proof.
  intros St NB Hshl Hmod Hbit Hdiv Lo Co DP DQ Sa Sc E. pose proof Sa as (Na & La & _). pose proof Sc as (Nc & Lc & _).
  assert (IC : forall b, b = 32 \/ b = 64 -> t = DInt b -> exists r, fold same o a c = Ok r).
  { intros b Hb ->. apply near_int in Na, Nc.
    assert (Io : int_opb o = true) by (destruct o; try reflexivity; try discriminate; specialize (Hdiv eq_refl); discriminate).
    destruct (int_meaning env o b P Q a c v Hb Io DP DQ Sa Sc E) as (x & y & z & Rx & Ry & Rz & A & B & M).
    apply (fold_int_ok same o b a c x y z); auto. intros -> ->. specialize (Hshl eq_refl). discriminate. }
  destruct St as [St|[St|[St|St]]]; [contradiction|eauto|eauto|]. rewrite St in Na, Nc, Sa, Sc, Hbit, Hmod. apply near_flt in Na, Nc.
  destruct (flt_opb o) eqn:Fo.
  - destruct (flt_meaning env o P Q a c v Fo Sa Sc E) as (x & y & z & A & B & M). apply (fold_flt_ok same o a c x y z); auto.
  - assert (Ia : pint a = None) by (apply pint_none; assumption).
    destruct o; try discriminate; try (exfalso; apply Hbit; reflexivity); try (exfalso; apply Hmod; reflexivity); cbn [fold].
    + unfold fold_min. rewrite Ia. destruct (pflt a), (pflt c); destruct (same a c); eauto.
    + unfold fold_max. rewrite Ia. destruct (pflt a), (pflt c); destruct (same a c); eauto.
Qed.

Lemma select_dt same env s e : (forall u v, same u v = true -> u = v) -> supported s -> good_env env s ->
  dt (plain s) = DBool -> simple_condition s -> compile same s = Ok e -> dt e = DBool.
Proof.
  intros HS SU GE D SC CO. destruct s as [d v|x|d n|o a b|a|c a b]; cbn [compile simple_condition] in *.
  - cbn in D. subst d. cbn in CO. destruct (v <? 0); [discriminate CO|]. injection CO as <-. reflexivity.
  - injection CO as <-. exact D.
  - injection CO as <-. exact D.
  - destruct (is_cmp o) eqn:Co.
    + destruct (compile same a) as [a'| | |]; cbn [bind] in CO; try discriminate.
      destruct (compile same b) as [b'| | |]; cbn [bind] in CO; try discriminate.
      destruct (build_gen same o a' b' e SC) as (a1 & b1 & r & M & HF & -> & _); [destruct o; discriminate|assumption|].
      assert (HF' : fold_cmp o a1 b1 = Ok r) by (destruct o; try discriminate Co; exact HF).
      destruct r as [r|]; cbn [or_node]; [|apply dt_cmp, Co]. unfold fold_cmp in HF'.
      destruct (pint a1), (pint b1); cbn in HF'; try (destruct (zcmp o z z0); cbn in HF'; injection HF' as <-; reflexivity);
        destruct (pflt a1), (pflt b1); cbn in HF'; try discriminate HF'; destruct (fcmp _ _ _); cbn in HF'; injection HF' as <-; reflexivity.
    + exfalso. destruct SU as (Ua & Ub & U). cbv zeta in U. rewrite SC, Co in U. cbn [plain] in D. rewrite SC in D. unfold DBool in *.
      destruct o; try discriminate SC; try discriminate Co; cbn [dt] in D; rewrite ?dt_to in D; try (destruct U as [U1 U2]; contradiction); congruence.
  - destruct (compile same a) as [a'| | |]; cbn [bind] in CO; try discriminate. unfold build_not in CO.
    destruct (boolish (dt a')); [|discriminate CO]. destruct (pint a') as [x|].
    + destruct (x =? 0); cbn in CO; injection CO as <-; reflexivity.
    + injection CO as <-. reflexivity.
  - contradiction.
Qed.

Lemma near_boolish d : near DBool d -> boolish d = true.
Proof. intros [-> |[_ ->]]; reflexivity. Qed.

Lemma compile_total same env s : (forall u v, same u v = true -> u = v) ->
  supported s -> good_env env s -> all_evaluate env s -> simple_conditions s -> exists e, compile same s = Ok e.
Proof.
  intros HS. induction s as [d v|x|d n|o a IHa b IHb|a IHa|c IHc a IHa b IHb]; intros SU GE AE SC; pose proof SU as SU0.
  - cbn [compile]. destruct SU as (St & Nf & Cv & _). destruct St as [-> |[-> |[-> | ->]]]; cbn; eauto; [|contradiction].
    cbn in Cv. destruct (Z.ltb_spec v 0); [|eauto]. destruct (v =? 0); lia.
  - cbn. eauto.
  - cbn. eauto.
  - destruct SU as (Ua & Ub & U). cbv zeta in U. destruct GE as (Ga & Gb & Fin). destruct AE as ((v & E) & Aa & Ab). destruct SC as (Ca & Cb).
    destruct (IHa Ua Ga Aa Ca) as (a' & Ea). destruct (IHb Ub Gb Ab Cb) as (b' & Eb).
    destruct (compile_sim same env a HS a' Ua Ga Ea) as [Sa La]. destruct (compile_sim same env b HS b' Ub Gb Eb) as [Sb Lb].
    cbn [compile]. rewrite Ea, Eb. cbn [bind].
    pose proof (plain_std a Ua) as Ta. pose proof (plain_std b Ub) as Tb. clear IHa IHb.
    cbn [plain] in E. set (p := plain a) in *. set (q := plain b) in *. set (t := join (dt p) (dt q)) in *.
    assert (Tt : std_type t) by (apply join_std; assumption).
    pose proof Sa as (Na & _ & _). pose proof Sb as (Nb & _ & _).
    destruct (is_logic o) eqn:Lo.
    { destruct U as [Dp Dq]. rewrite Dp in *. rewrite Dq in *. specialize (La eq_refl). specialize (Lb eq_refl).
      destruct (cast_bool_ok a' Na La) as (ea & Ka). destruct (cast_bool_ok b' Nb Lb) as (eb & Kb).
      assert (Ho : o = And \/ o = Or) by (destruct o; try discriminate Lo; auto). unfold build.
      rewrite (near_boolish _ Na), (near_boolish _ Nb). cbn [andb].
      destruct Ho as [-> | ->]; cbn [fold]; unfold fold_and, fold_or; rewrite Ka, Kb; destruct (pint a') as [x|], (pint b') as [y|]; cbn; eauto;
        destruct (_ =? 0); cbn; eauto. }
    destruct (match_ok _ _ a' b' Ta Tb Na Nb) as (a1 & b1 & M).
    destruct (match_sim env p q a' b' a1 b1 Ta Tb Sa Sb M) as (_ & _ & S1 & S2). fold t in S1, S2.
    assert (BG : (exists r, fold same o a1 b1 = Ok r) -> o <> Div -> (is_bit o = true -> is_float (dt a') = false /\ is_float (dt b') = false) ->
      exists e, build same o a' b' = Ok e).
    { intros (r & HF) ND HB. unfold build. rewrite M. destruct o; try discriminate Lo; try congruence; cbn [bind]; try (rewrite HF; cbn; eauto; fail);
        destruct (HB eq_refl) as [-> ->]; cbn [negb andb]; rewrite HF; cbn; eauto. }
    destruct (is_cmp o) eqn:Co.
    { apply BG; [|destruct o; discriminate|destruct o; discriminate].
      assert (exists r, fold_cmp o a1 b1 = Ok r) as (r & HF); [|exists r; destruct o; try discriminate Co; exact HF].
      unfold fold_cmp. destruct (pint a1), (pint b1); cbn; try (destruct (zcmp _ _ _); cbn; eauto; fail);
        destruct (pflt a1), (pflt b1); cbn; try (destruct (fcmp _ _ _); cbn); eauto. }
    assert (NB : t <> DBool) by (destruct o; try discriminate Lo; try discriminate Co; cbv iota in U; try (rewrite U; discriminate); tauto).
    assert (DD : o = Div \/ o <> Div) by (destruct o; auto; right; discriminate). destruct DD as [-> |ND].
    { unfold build. rewrite M. cbn [bind].
      destruct (cast_ok DF64 a1) as (a2 & C1); [discriminate|auto|]. destruct (cast_ok DF64 b1) as (b2 & C2); [discriminate|auto|].
      rewrite C1, C2. cbn [bind].
      destruct (conv_sim env t DF64 (to t p) a1 a2 (dt_to _ _) S1 (widens_f64 t Tt NB) Tt) as [S3 D3]; [discriminate|auto|].
      destruct (conv_sim env t DF64 (to t q) b1 b2 (dt_to _ _) S2 (widens_f64 t Tt NB) Tt) as [S4 D4]; [discriminate|auto|].
      destruct (arith_ok env same Div DF64 (to DF64 (to t p)) (to DF64 (to t q)) a2 b2 v) as (r & HF); auto; try discriminate; try apply dt_to.
      - unfold std_type. auto.
      - rewrite HF. cbn. eauto. }
    assert (XX : (match o with Div => EBin Div (to DF64 (to t p)) (to DF64 (to t q)) | _ => EBin o (to t p) (to t q) end) = EBin o (to t p) (to t q))
        by (destruct o; try congruence; reflexivity).
    rewrite XX in E.
    assert (HB : is_bit o = true -> t <> DF64).
    { intros Hb Et. rewrite Et in E.
      apply eval_bin in E; [|destruct o; discriminate..]. destruct E as (p1 & q1 & E1 & E2 & E).
      rewrite Et in S1, S2. destruct (sim_flt_inv env _ _ _ S1 E1) as (x1 & _ & -> & _). destruct (sim_flt_inv env _ _ _ S2 E2) as (y1 & _ & -> & _).
      destruct o; discriminate. }
    apply BG; [|assumption|].
    + apply (arith_ok env same o t (to t p) (to t q) a1 b1 v); auto; try apply dt_to.
      * intros ->. exact U.
      * intros ->. apply U.
      * intros ->. congruence.
    + intros Hb. specialize (HB Hb). assert (K : dt p <> DF64 /\ dt q <> DF64).
      { split; intros K; apply HB; unfold t; rewrite K; [reflexivity|destruct (dt p); reflexivity]. }
      assert (NF : forall d d', near d d' -> d <> DF64 -> is_float d' = false) by (intros d d' [-> |[_ ->]] Nd; [destruct d; try reflexivity; contradiction|reflexivity]).
      split; [apply (NF _ _ Na), K|apply (NF _ _ Nb), K].
  - destruct SU as (Ua & D). destruct AE as (_ & Aa). destruct (IHa Ua GE Aa SC) as (a' & Ea).
    destruct (compile_sim same env a HS a' Ua GE Ea) as [(Na & _ & _) La]. cbn [compile]. rewrite Ea. cbn [bind]. rewrite D in Na.
    unfold build_not. rewrite (near_boolish _ Na). destruct (pint a') as [x|]; [|eauto]. destruct (x =? 0); cbn; eauto.
  - destruct SU as (Uc & Ua & Ub & D). destruct GE as (Gc & Ga & Gb). destruct AE as (_ & Ac & Aa & Ab). destruct SC as (C0 & Cc & Ca & Cb).
    destruct (IHc Uc Gc Ac Cc) as (c' & Ec). destruct (IHa Ua Ga Aa Ca) as (a' & Ea). destruct (IHb Ub Gb Ab Cb) as (b' & Eb).
    destruct (compile_sim same env a HS a' Ua Ga Ea) as [(Na & _ & _) _]. destruct (compile_sim same env b HS b' Ub Gb Eb) as [(Nb & _ & _) _].
    cbn [compile]. rewrite Ec, Ea, Eb. cbn [bind]. unfold build_sel. rewrite (select_dt same env c c' HS Uc Gc D C0 Ec), dtype_eqb_refl.
    destruct (match_ok _ _ a' b' (plain_std a Ua) (plain_std b Ub) Na Nb) as (a1 & b1 & M). rewrite M. cbn [bind].
    destruct (pint c'); eauto.
Qed.
