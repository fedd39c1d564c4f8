(** The compiled function behaves like the Python function. *)
From Verif Require Import Base IntModel IntProofs KeyModel FoldModel FoldSpec FloatAux FoldProofs
  ScriptAst ScriptSpec ScriptModel.

(** ** Expressions *)
Definition bit (z : Z) : Prop := z = 0 \/ z = 1.
Definition tyok (d : dtype) (t : cty) (z : Z) : Prop :=
  (d = DInt 64 /\ t = s64 /\ range 64 z) \/ (d = DBool /\ t = CBool /\ bit z) \/
  (d = DInt 32 /\ t = s32 /\ bit z).
Definition dok (d : dtype) : Prop := d = DInt 64 \/ d = DBool \/ d = DInt 32.
Definition den (env : nat -> res cval) (x : expr) (z : Z) : Prop :=
  exists t, eval env x = Ok (VI t z) /\ tyok (dt x) t z.
(** constants of the folded expression *)
Definition lwf (x : expr) : Prop :=
  forall z, pint x = Some z -> (dt x = DInt 64 -> range 64 z) /\ (dt x <> DInt 64 -> bit z).
Definition wf (x : expr) : Prop := dok (dt x) /\ lwf x.

Lemma bit32 z : bit z -> range 32 z.
Proof. unfold bit, range. change (32 - 1) with 31. lia. Qed.
Lemma bit64 z : bit z -> range 64 z.
Proof. unfold bit, range. change (64 - 1) with 63. lia. Qed.
Lemma tyok_range d t z : tyok d t z -> range 64 z.
Proof. intros [(_ & _ & H)|[(_ & _ & H)|(_ & _ & H)]]; auto using bit64. Qed.
Lemma tyok_bit d t z : tyok d t z -> d <> DInt 64 -> bit z.
Proof. intros [(-> & _ & H)|[(_ & _ & H)|(_ & _ & H)]] N; auto. congruence. Qed.
Lemma tyok_fits d t z : tyok d t z -> FoldProofs.fits t z.
Proof.
  unfold FoldProofs.fits. intros [(_ & -> & H)|[(_ & -> & H)|(_ & -> & H)]]; auto using bit32.
Qed.
Lemma lwf_ok x z : wf x -> pint x = Some z -> lit_ok (dt x) z.
Proof.
  intros [D L] P. destruct (L z P) as [A B]. unfold lit_ok, int64.
  destruct D as [D|[D|D]]; rewrite D in *.
  - right. split; [auto|]. apply int64_range, A. reflexivity.
  - left. split; [reflexivity|]. apply B. discriminate.
  - right. split; [auto|]. apply int64_range, bit64, B. discriminate.
Qed.
Lemma lit_den env x z : wf x -> pint x = Some z -> den env x z.
Proof.
  intros W P. assert (K := lwf_ok x z W P). destruct W as [D L]. destruct (L z P) as [A B].
  destruct (lit_val _ _ K) as (t & E & C). pose proof (pint_eq _ _ P) as Q. exists t. split.
  - rewrite Q. cbn [eval]. f_equal. exact E.
  - unfold tyok. destruct C as [(C & ->)|[(C & _ & T)|(C & ->)]].
    + right; left. repeat split; auto. apply B. rewrite C. discriminate.
    + right; right. assert (bit z) by (apply B; rewrite C; discriminate). repeat split; auto. 
    + left. repeat split; auto; apply A; auto.
Qed.
Lemma den_fun env x z z' : den env x z -> den env x z' -> z = z'.
Proof. intros (t & E & _) (t' & E' & _). congruence. Qed.
Lemma lit_is env x z z' : wf x -> pint x = Some z -> den env x z' -> z' = z.
Proof. intros W P H. eapply den_fun; [exact H|]. apply lit_den; assumption. Qed.

Lemma den_range env x z : den env x z -> range 64 z.
Proof. intros (t & _ & T). eapply tyok_range, T. Qed.

(** conversion *)
Lemma cast64_den env a z : wf a -> den env a z -> den env (ECast (DInt 64) a) z.
Proof.
  intros W (t & E & T). unfold den. cbn [eval dt]. rewrite E. cbn [bind].
  destruct (dtype_eqb (dt a) (DInt 64)) eqn:Q.
  - apply dtype_eqb_eq in Q. exists t. split; [reflexivity|]. rewrite <- Q at 1. exact T.
  - exists s64. split.
    + cbn [cast_val ctype]. fold s64. rewrite conv64; [reflexivity|]. eapply tyok_range, T.
    + left. repeat split; auto; eapply tyok_range, T.
Qed.
Lemma cast32_den env a z : dt a = DBool -> den env a z -> den env (ECast (DInt 32) a) z.
Proof.
  intros D (t & E & T). unfold den. cbn [eval dt]. rewrite E, D. cbn [bind dtype_eqb DBool].
  assert (B : bit z) by (eapply tyok_bit; [exact T|rewrite D; discriminate]).
  exists s32. split.
  - cbn [cast_val ctype]. fold s32. rewrite conv32; [reflexivity|]. apply bit32, B.
  - right; right. auto.
Qed.
Lemma eval_cast_exn env d a x : eval env a = Exn x -> eval env (ECast d a) = Exn x.
Proof. intros E. cbn [eval]. rewrite E. reflexivity. Qed.

(** what matching the types of two operands keeps *)
Definition keeps (env : nat -> res cval) (a a' : expr) : Prop :=
  (forall z, den env a z -> den env a' z) /\
  (forall x, eval env a = Exn x -> eval env a' = Exn x) /\
  (forall z, pint a' = Some z -> pint a = Some z).
Lemma keeps_refl env a : keeps env a a.
Proof. repeat split; auto. Qed.
Lemma keeps_cast64 env a : wf a -> keeps env a (ECast (DInt 64) a).
Proof. intros W. repeat split; intros; [apply cast64_den|apply eval_cast_exn|discriminate]; assumption. Qed.
Lemma keeps_cast32 env a : dt a = DBool -> keeps env a (ECast (DInt 32) a).
Proof. intros W. repeat split; intros; [apply cast32_den|apply eval_cast_exn|discriminate]; assumption. Qed.
Lemma lwf_cast d a : lwf (ECast d a).
Proof. intros z H. discriminate. Qed.

Lemma match_keeps env a b a' b' : wf a -> wf b -> match_types a b = Ok (a', b') ->
  keeps env a a' /\ keeps env b b' /\ wf a' /\ wf b' /\ dt a' = dt b' /\
  (dt a = DInt 64 \/ dt b = DInt 64 -> dt a' = DInt 64) /\
  (dt a <> DInt 64 -> dt b <> DInt 64 -> dt a' <> DInt 64).
Proof.
  intros Wa Wb. assert (Wa' := Wa). assert (Wb' := Wb). destruct Wa' as [Da La], Wb' as [Db Lb].
  assert (LIT : forall x (d : dtype), wf x -> dt x = DInt 32 -> forall e, cast (DInt 64) x = Ok e ->
     keeps env x e /\ wf e /\ dt e = DInt 64).
  { intros x _ W D e. unfold cast. rewrite D. cbn [dtype_eqb Z.eqb Pos.eqb].
    assert (G : Ok (ECast (DInt 64) x) = Ok e -> keeps env x e /\ wf e /\ dt e = DInt 64).
    { intros [= <-]. split; [apply keeps_cast64, W|]. split; [|reflexivity]. split; [left; reflexivity|apply lwf_cast]. }
    destruct x; try exact G.
    - cbn [make_const mk_int]. intros [= <-]. cbn [dt] in D. subst d.
      assert (N : bit v) by (apply (proj2 W v eq_refl); discriminate).
      split; [|split; [|reflexivity]].
      + split; [|split].
        * intros z Z. assert (z = v) by (eapply lit_is; [exact W|reflexivity|exact Z]). subst z.
          apply lit_den; [|reflexivity]. split; [left; reflexivity|]. intros z [= <-]. split; intros; [apply bit64, N|congruence].
        * intros y Y. cbn in Y. discriminate.
        * intros z Z. exact Z.
      + split; [left; reflexivity|]. intros z [= <-]. split; intros; [apply bit64, N|congruence].
    - cbn [dt] in D. discriminate. }
  unfold match_types. destruct (dtype_eqb (dt a) (dt b)) eqn:Q.
  { apply dtype_eqb_eq in Q. intros [= <- <-].
    split; [apply keeps_refl|]. split; [apply keeps_refl|]. split; [exact Wa|]. split; [exact Wb|]. split; [exact Q|].
    split; [intros [H|H]; congruence|auto]. }
  destruct Da as [Da|[Da|Da]], Db as [Db|[Db|Db]]; try (rewrite Da, Db in Q; discriminate Q);
    rewrite Da, Db; unfold DBool; cbn [is_float is_int is_uint negb andb orb dbits Z.ltb Z.compare Pos.compare Pos.compare_cont].
  - (* 64, bool *) cbv [Z.max Z.compare Pos.compare Pos.compare_cont]. unfold simple_cast. rewrite Da, Db. cbn [dtype_eqb Z.eqb Pos.eqb DBool].
    intros [= <- <-]. split; [apply keeps_refl|]. split; [apply keeps_cast64; assumption|]. split; [assumption|].
    split; [split; [left; reflexivity|apply lwf_cast]|]. split; [exact Da|]. split; [auto|congruence].
  - (* 64, 32 *) destruct (cast (DInt 64) b) as [e| | |] eqn:C; try discriminate. intros [= <- <-].
    destruct (LIT b (DInt 32) Wb Db e C) as (K & W & D). split; [apply keeps_refl|]. split; [exact K|]. split; [assumption|].
    split; [exact W|]. split; [congruence|]. split; [auto|congruence].
  - (* bool, 64 *) cbv [Z.max Z.compare Pos.compare Pos.compare_cont]. unfold simple_cast. rewrite Da, Db. cbn [dtype_eqb Z.eqb Pos.eqb DBool].
    intros [= <- <-]. split; [apply keeps_cast64; assumption|]. split; [apply keeps_refl|].
    split; [split; [left; reflexivity|apply lwf_cast]|]. split; [assumption|]. split; [symmetry; exact Db|]. split; [auto|congruence].
  - (* bool, 32 *) cbv [Z.max Z.compare Pos.compare Pos.compare_cont]. unfold simple_cast. rewrite Da, Db. cbn [dtype_eqb Z.eqb Pos.eqb DBool].
    intros [= <- <-]. split; [apply keeps_cast32; assumption|]. split; [apply keeps_refl|].
    split; [split; [right; right; reflexivity|apply lwf_cast]|]. split; [assumption|]. split; [symmetry; exact Db|].
    split; [intros [H|H]; discriminate H|intros; discriminate].
  - (* 32, 64 *) destruct (cast (DInt 64) a) as [e| | |] eqn:C; try discriminate. intros [= <- <-].
    destruct (LIT a (DInt 32) Wa Da e C) as (K & W & D). split; [exact K|]. split; [apply keeps_refl|]. split; [exact W|].
    split; [assumption|]. split; [congruence|]. split; [auto|congruence].
  - (* 32, bool *) cbv [Z.max Z.compare Pos.compare Pos.compare_cont]. unfold simple_cast. rewrite Da, Db. cbn [dtype_eqb Z.eqb Pos.eqb DBool].
    intros [= <- <-]. split; [apply keeps_refl|]. split; [apply keeps_cast32; assumption|]. split; [assumption|].
    split; [split; [right; right; reflexivity|apply lwf_cast]|]. split; [exact Da|].
    split; [intros [H|H]; discriminate H|intros; congruence].
Qed.
(** Python's arithmetic on numbers, within 64 bits *)
Definition zar (o : arith) (x y : Z) : res Z :=
  let lim z := if int64b z then Ok z else UB in
  match o with
  | PAdd => lim (x + y)
  | PSub => lim (x - y)
  | PMul => lim (x * y)
  | PFloorDiv => if y =? 0 then Exn ZeroDivisionError else lim (x / y)
  | PMod => if y =? 0 then Exn ZeroDivisionError else lim (x mod y)
  end.

Definition i64 (x : expr) : Prop := dt x = DInt 64 /\ lwf x.
Lemma i64_wf x : i64 x -> wf x. Proof. intros [D L]. split; [left; exact D|exact L]. Qed.
Lemma i64_lit x z : i64 x -> pint x = Some z -> x = EInt (DInt 64) z /\ range 64 z.
Proof.
  intros [D L] P. split; [|apply (L z P), D]. rewrite <- D. apply pint_eq, P.
Qed.
Lemma i64_EInt z : range 64 z -> i64 (EInt (DInt 64) z).
Proof. intros R. split; [reflexivity|]. intros w [= <-]. split; [auto|]. intros N. destruct (N eq_refl). Qed.
Lemma i64_EBin o a b : i64 a -> is_cmp o = false -> is_logic o = false -> i64 (EBin o a b).
Proof. intros [D _] C L. split; [rewrite dt_bin; assumption|]. intros z H. discriminate. Qed.
Lemma den64 env x z : i64 x -> den env x z -> eval env x = Ok (VI s64 z) /\ range 64 z.
Proof.
  intros [D _] (t & E & [(_ & -> & R)|[(D' & _)|(D' & _)]]); [auto| |]; rewrite D in D'; discriminate D'.
Qed.
Lemma den64_intro env x z : i64 x -> eval env x = Ok (VI s64 z) -> range 64 z -> den env x z.
Proof. intros [D _] E R. exists s64. split; [exact E|]. left. auto. Qed.
Lemma exn_nolit env x e : eval env x = Exn e -> pint x = None.
Proof. destruct x; try reflexivity. discriminate. Qed.

Lemma range64_b z : range 64 z <-> int64b z = true.
Proof. unfold range, int64b. change (64 - 1) with 63. unfold two63. rewrite andb_true_iff. lia. Qed.
Lemma zar_op o x y z : range 64 x -> range 64 y -> zar o x y = Ok z ->
  int_op (ScriptModel.arith_op o) s64 x s64 y = Ok (VI s64 z) /\ range 64 z.
Proof.
  intros X Y. unfold zar.
  assert (L : forall w, (if int64b w then Ok w else UB) = Ok z -> w = z /\ range 64 z).
  { intros w. destruct (int64b w) eqn:I; [|discriminate]. intros [= ->]. split; [reflexivity|].
    apply range64_b, I. }
  unfold int_op. cbn [common promote s64]. change (64 <? 32) with false. cbv iota.
  change (Z.max 64 64) with 64. fold s64. rewrite !conv64 by assumption.
  assert (F : forall w, w = z -> range 64 z -> fit s64 w = Ok (VI s64 z)).
  { intros w -> R. unfold fit, s64. rewrite (proj2 (in_signed_iff 64 z) R). reflexivity. }
  destruct o; cbn [ScriptModel.arith_op].
  - intros E. destruct (L _ E) as [-> R]. auto.
  - intros E. destruct (L _ E) as [-> R]. auto.
  - intros E. destruct (L _ E) as [-> R]. auto.
  - destruct (Z.eqb_spec y 0) as [|N]; [discriminate|]. intros E. destruct (L _ E) as [<- R]. split; [|exact R].
    cbn [s64]. fold s64. rewrite div_i64 by assumption. cbn [bind]. do 2 f_equal.
    unfold wraps64. unfold range in R. change (64 - 1) with 63 in R. unfold two63, two64. rewrite Z.mod_small; lia.
  - destruct (Z.eqb_spec y 0) as [|N]; [discriminate|]. intros E. destruct (L _ E) as [<- R]. split; [|exact R].
    cbn [s64]. fold s64. rewrite mod_i64 by assumption. reflexivity.
Qed.
Lemma zar_zero o x : range 64 x -> o = PFloorDiv \/ o = PMod ->
  int_op (ScriptModel.arith_op o) s64 x s64 0 = Exn ZeroDivisionError.
Proof.
  intros X Ho. unfold int_op. cbn [common promote s64]. 
  destruct Ho as [-> | ->]; cbn [ScriptModel.arith_op]; cbn [s64]; fold s64; reflexivity.
Qed.

Lemma eval_arith env o a b : eval env (EBin (ScriptModel.arith_op o) a b) =
  (let! v := eval env a in let! w := eval env b in bin_op (ScriptModel.arith_op o) v w).
Proof. destruct o; reflexivity. Qed.
Lemma cmp_arith o : is_cmp (ScriptModel.arith_op o) = false /\ is_logic (ScriptModel.arith_op o) = false.
Proof. destruct o; auto. Qed.

(** the effect of one operator: value, exceptions, and when the result is not a constant *)
Definition meets (env : nat -> res cval) (o : arith) (a b e : expr) : Prop :=
  (forall x y z, den env a x -> den env b y -> zar o x y = Ok z -> den env e z) /\
  (forall ex, eval env a = Exn ex ->
     (o = PMul -> pint b <> Some 0) -> (o = PMod -> pint b <> Some 1) -> eval env e = Exn ex) /\
  (forall x ex, den env a x -> eval env b = Exn ex ->
     (o = PMul \/ o = PFloorDiv \/ o = PMod -> pint a <> Some 0) -> eval env e = Exn ex) /\
  (forall x, den env a x -> den env b 0 -> o = PFloorDiv \/ o = PMod -> pint a <> Some 0 ->
     eval env e = Exn ZeroDivisionError) /\
  (o = PAdd \/ o = PSub -> pint a = None \/ pint b = None -> pint e = None) /\
  (o = PFloorDiv -> pint a = None -> pint e = None) /\
  (pint a = None -> pint b = None -> pint e = None) /\
  (o = PMul -> pint a = None -> pint b <> Some 0 -> pint e = None).

Lemma node_meets env o a b : i64 a -> i64 b ->
  i64 (EBin (ScriptModel.arith_op o) a b) /\ meets env o a b (EBin (ScriptModel.arith_op o) a b).
Proof.
  intros A B. destruct (cmp_arith o) as [C1 C2].
  assert (I := i64_EBin (ScriptModel.arith_op o) a b A C1 C2). split; [exact I|].
  repeat split; intros; try reflexivity.
  - destruct (den64 env a x A H) as [Ea Ra], (den64 env b y B H0) as [Eb Rb]. destruct (zar_op o x y z Ra Rb H1) as [E R].
    apply den64_intro; [exact I| |exact R]. rewrite eval_arith, Ea, Eb. exact E.
  - rewrite eval_arith, H. reflexivity.
  - destruct (den64 env a x A H) as [Ea Ra]. rewrite eval_arith, Ea. cbn [bind]. rewrite H0. reflexivity.
  - destruct (den64 env a x A H) as [Ea Ra], (den64 env b 0 B H0) as [Eb Rb]. rewrite eval_arith, Ea, Eb. cbn [bind bin_op].
    apply zar_zero; assumption.
Qed.

Lemma chk64_range v w : chk64 v = Ok w -> w = v /\ range 64 v.
Proof. apply chk64_inv. Qed.

(** both operands constant *)
Lemma const_meets env o x y z : range 64 x -> range 64 y ->
  (forall z', zar o x y = Ok z' -> z' = z) -> range 64 z ->
  (o = PFloorDiv \/ o = PMod -> y = 0 -> x = 0) ->
  i64 (EInt (DInt 64) z) /\ meets env o (EInt (DInt 64) x) (EInt (DInt 64) y) (EInt (DInt 64) z).
Proof.
  intros X Y Z R N. assert (Iz := i64_EInt z R). split; [exact Iz|].
  assert (Wx := i64_wf _ (i64_EInt x X)). assert (Wy := i64_wf _ (i64_EInt y Y)).
  repeat split; intros; try discriminate.
  - assert (x0 = x) by (eapply lit_is; [exact Wx|reflexivity|exact H]).
    assert (y0 = y) by (eapply lit_is; [exact Wy|reflexivity|exact H0]). subst x0 y0. rewrite (Z _ H1).
    apply lit_den; [apply i64_wf, Iz|reflexivity].
  - assert (0 = y) by (eapply lit_is; [exact Wy|reflexivity|exact H0]).
    exfalso. apply H2. cbn [pint]. f_equal. apply N; auto.
  - destruct H0; discriminate.
Qed.
Lemma lit_exn env d x ex : eval env (EInt d x) = Exn ex -> False.
Proof. discriminate. Qed.
Lemma left_id env o x b : i64 (EInt (DInt 64) x) -> i64 b -> pint b = None ->
  o <> PFloorDiv -> o <> PMod ->
  (forall y z, zar o x y = Ok z -> z = y) -> meets env o (EInt (DInt 64) x) b b.
Proof.
  intros A B P N1 N2 V. repeat split; intros; auto.
  - assert (x0 = x) by (eapply lit_is; [apply i64_wf, A|reflexivity|exact H]). subst. rewrite (V _ _ H1). exact H0.
  - destruct (lit_exn _ _ _ _ H).
  - destruct H1; congruence.
Qed.
Lemma right_id env o a y : i64 a -> i64 (EInt (DInt 64) y) -> pint a = None ->
  o <> PFloorDiv -> o <> PMod ->
  (forall x z, range 64 x -> zar o x y = Ok z -> z = x) -> meets env o a (EInt (DInt 64) y) a.
Proof.
  intros A B P N1 N2 V. repeat split; intros; auto.
  - assert (y0 = y) by (eapply lit_is; [apply i64_wf, B|reflexivity|exact H0]). subst.
    rewrite (V x z (den_range _ _ _ H) H1). exact H.
  - destruct (lit_exn _ _ _ _ H0).
  - destruct H1; congruence.
Qed.
Lemma absorb_l env o b : o = PMul \/ o = PFloorDiv \/ o = PMod ->
  meets env o (EInt (DInt 64) 0) b (EInt (DInt 64) 0).
Proof.
  intros O. assert (I0 : i64 (EInt (DInt 64) 0)) by (apply i64_EInt; unfold range; change (64 - 1) with 63; lia).
  assert (D0 : den env (EInt (DInt 64) 0) 0) by (apply lit_den; [apply i64_wf, I0|reflexivity]).
  repeat split; intros; try discriminate.
  - assert (x = 0) by (eapply den_fun; eassumption). subst x.
    assert (z = 0); [|subst; exact D0]. unfold zar in H1.
    destruct O as [-> |[-> | ->]].
    + cbn [Z.mul] in H1. vm_compute in H1. congruence.
    + destruct (Z.eqb_spec y 0); [discriminate|]. rewrite Zdiv_0_l in H1. vm_compute in H1. congruence.
    + destruct (Z.eqb_spec y 0); [discriminate|]. rewrite Zmod_0_l in H1. vm_compute in H1. congruence.
  - destruct (H1 O eq_refl).
  - destruct (H2 eq_refl).
  - destruct O as [-> |[-> | ->]]; destruct H; discriminate.
Qed.
Lemma absorb_r env a : meets env PMul a (EInt (DInt 64) 0) (EInt (DInt 64) 0).
Proof.
  assert (I0 : i64 (EInt (DInt 64) 0)) by (apply i64_EInt; unfold range; change (64 - 1) with 63; lia).
  assert (D0 : den env (EInt (DInt 64) 0) 0) by (apply lit_den; [apply i64_wf, I0|reflexivity]).
  repeat split; intros; try discriminate.
  - assert (y = 0) by (eapply den_fun; eassumption). subst y.
    assert (z = 0); [|subst; exact D0]. unfold zar in H1. rewrite Z.mul_0_r in H1. vm_compute in H1. congruence.
  - destruct (H0 eq_refl eq_refl).
  - destruct H1; discriminate.
  - destruct H; discriminate.
  - destruct (H1 eq_refl).
Qed.
Lemma mod_one env a : meets env PMod a (EInt (DInt 64) 1) (EInt (DInt 64) 0).
Proof.
  assert (I0 : i64 (EInt (DInt 64) 0)) by (apply i64_EInt; unfold range; change (64 - 1) with 63; lia).
  assert (I1 : i64 (EInt (DInt 64) 1)) by (apply i64_EInt; unfold range; change (64 - 1) with 63; lia).
  assert (D0 : den env (EInt (DInt 64) 0) 0) by (apply lit_den; [apply i64_wf, I0|reflexivity]).
  assert (D1 : den env (EInt (DInt 64) 1) 1) by (apply lit_den; [apply i64_wf, I1|reflexivity]).
  repeat split; intros; try discriminate.
  - assert (y = 1) by (eapply den_fun; eassumption). subst y.
    assert (z = 0); [|subst; exact D0]. unfold zar in H1. rewrite Zmod_1_r in H1. vm_compute in H1. congruence.
  - destruct (H1 eq_refl eq_refl).
  - assert (0 = 1) by (eapply den_fun; eassumption). discriminate.
  - destruct H; discriminate.
Qed.

Lemma lim_inv w z : (if int64b w then Ok w else UB) = Ok z -> z = w.
Proof. destruct (int64b w); [|discriminate]. congruence. Qed.

Lemma fold_meets env same o a b r : i64 a -> i64 b ->
  fold same (ScriptModel.arith_op o) a b = Ok r ->
  i64 (or_node (ScriptModel.arith_op o) a b r) /\ meets env o a b (or_node (ScriptModel.arith_op o) a b r).
Proof.
  intros A B.
  assert (NODE := node_meets env o a b A B).
  assert (FA : pflt a = None) by (apply pflt_none; rewrite (proj1 A); discriminate).
  assert (FB : pflt b = None) by (apply pflt_none; rewrite (proj1 B); discriminate).
  assert (KA : forall k, isflt a k = false) by (intros; rewrite isflt_pflt, FA; reflexivity).
  assert (KB : forall k, isflt b k = false) by (intros; rewrite isflt_pflt, FB; reflexivity).
  destruct (pint a) as [x|] eqn:PA, (pint b) as [y|] eqn:PB.
  - destruct (i64_lit a x A PA) as [-> X], (i64_lit b y B PB) as [-> Y].
    assert (W : forall w, range 64 w -> (forall z', zar o x y = Ok z' -> z' = w) -> (o = PFloorDiv \/ o = PMod -> y = 0 -> x = 0) ->
       i64 (EInt (DInt 64) w) /\ meets env o (EInt (DInt 64) x) (EInt (DInt 64) y) (EInt (DInt 64) w)).
    { intros w R V N. apply const_meets; assumption. }
    destruct o; cbn [ScriptModel.arith_op fold fold_add fold_sub fold_mul fold_floordiv fold_floormod pint dt mk_int];
      unfold zar in W.
    + destruct (chk64 (x + y)) as [w| | |] eqn:K; try discriminate. apply chk64_inv in K. destruct K as [-> R].
      unfold some, rmap; cbn [bind make_const mk_int]; intros [= <-]. apply W; [exact R|apply lim_inv|intros [|]; discriminate].
    + destruct (chk64 (x - y)) as [w| | |] eqn:K; try discriminate. apply chk64_inv in K. destruct K as [-> R].
      unfold some, rmap; cbn [bind make_const mk_int]; intros [= <-]. apply W; [exact R|apply lim_inv|intros [|]; discriminate].
    + destruct (chk64 (x * y)) as [w| | |] eqn:K; try discriminate. apply chk64_inv in K. destruct K as [-> R].
      unfold some, rmap; cbn [bind make_const mk_int]; intros [= <-]. apply W; [exact R|apply lim_inv|intros [|]; discriminate].
    + destruct (Z.eqb_spec y 0) as [|N]; [discriminate|].
      destruct (fast_floor_div_i64_i64 x y) as [w| | |] eqn:K; try discriminate.
      assert (R := floor_div_range x y w X Y K). rewrite div_i64 in K by assumption. injection K as <-.
      unfold some, rmap; cbn [bind make_const mk_int]; intros [= <-]. apply W; [exact R| |contradiction]. intros z' Z'. assert (E := lim_inv _ _ Z'). subst z'.
      destruct (int64b (x / y)) eqn:I; [|discriminate]. apply range64_b in I. unfold range in I. change (64 - 1) with 63 in I.
      unfold wraps64, two63, two64. rewrite Z.mod_small; lia.
    + unfold fold_floormod. cbn [dt pint]. change (is_index (DInt 64)) with true. cbn [andb].
      destruct (Z.eqb_spec y 0) as [|N]; [discriminate|].
      destruct (fast_mod_i64_i64 x y) as [w| | |] eqn:K; try discriminate.
      assert (R := floor_mod_range x y w X Y K). rewrite mod_i64 in K by assumption. injection K as <-.
      unfold some, rmap; cbn [bind make_const mk_int]; intros [= <-]. apply W; [exact R|apply lim_inv|contradiction].
  - destruct (i64_lit a x A PA) as [-> X].
    destruct o; cbn [ScriptModel.arith_op fold]; unfold fold_add, fold_sub, fold_mul, fold_floordiv, fold_floormod;
      rewrite ?PB, ?FB, ?KA, ?KB, ?isint_pint, ?PB; cbn [pint pflt isflt]; rewrite ?(proj1 B); cbn [dt is_int];
      change (is_index (DInt 64)) with true; cbn [andb].
    + destruct (Z.eqb_spec x 0) as [->|N]; unfold some, rmap; cbn [bind make_const mk_int]; intros [= <-]; [|exact NODE]. split; [exact B|]. cbn [or_node].
      apply left_id; auto; try discriminate. intros y z E. apply lim_inv in E. lia.
    + unfold some, rmap; cbn [bind make_const mk_int]; intros [= <-]. exact NODE.
    + destruct (Z.eqb_spec x 1) as [->|N1]; [|destruct (Z.eqb_spec x 0) as [->|N0]]; unfold some, rmap; cbn [bind make_const mk_int]; intros [= <-]; [| |exact NODE].
      * split; [exact B|]. cbn [or_node]. apply left_id; auto; try discriminate. intros y z E. apply lim_inv in E. lia.
      * split; [exact A|]. cbn [or_node]. apply absorb_l. auto.
    + destruct (Z.eqb_spec x 0) as [->|N]; unfold some, rmap; cbn [bind make_const mk_int]; intros [= <-]; [|exact NODE]. split; [exact A|]. cbn [or_node]. apply absorb_l. auto.
    + destruct (Z.eqb_spec x 0) as [->|N]; unfold some, rmap; cbn [bind make_const mk_int]; intros [= <-]; [|exact NODE]. split; [exact A|]. cbn [or_node]. apply absorb_l. auto.
  - destruct (i64_lit b y B PB) as [-> Y].
    destruct o; cbn [ScriptModel.arith_op fold]; unfold fold_add, fold_sub, fold_mul, fold_floordiv, fold_floormod;
      rewrite ?PA, ?FA, ?KA, ?KB, ?isint_pint, ?PA; cbn [pint pflt isflt]; rewrite ?(proj1 A); cbn [dt is_int];
      change (is_index (DInt 64)) with true; cbn [andb].
    + destruct (Z.eqb_spec y 0) as [->|N]; unfold some, rmap; cbn [bind make_const mk_int]; intros [= <-]; [|exact NODE]. split; [exact A|]. cbn [or_node].
      apply right_id; auto; try discriminate. intros x z _ E. apply lim_inv in E. lia.
    + destruct (Z.eqb_spec y 0) as [->|N]; unfold some, rmap; cbn [bind make_const mk_int]; intros [= <-]; [|exact NODE]. split; [exact A|]. cbn [or_node].
      apply right_id; auto; try discriminate. intros x z _ E. apply lim_inv in E. lia.
    + destruct (Z.eqb_spec y 1) as [->|N1]; [|destruct (Z.eqb_spec y 0) as [->|N0]]; unfold some, rmap; cbn [bind make_const mk_int]; intros [= <-]; [| |exact NODE].
      * split; [exact A|]. cbn [or_node]. apply right_id; auto; try discriminate. intros x z _ E. apply lim_inv in E. lia.
      * split; [exact B|]. cbn [or_node]. apply absorb_r.
    + destruct (Z.eqb_spec y 0) as [->|N]; [discriminate|]. unfold some, rmap; cbn [bind make_const mk_int]; intros [= <-]. exact NODE.
    + destruct (Z.eqb_spec y 1) as [->|N]; [|destruct (Z.eqb_spec y 0) as [->|N']; [discriminate|]]; unfold some, rmap; cbn [bind make_const mk_int]; intros [= <-]; [|exact NODE].
      split; [apply i64_EInt; unfold range; change (64 - 1) with 63; lia|]. cbn [or_node]. apply mod_one.
  - destruct o; cbn [ScriptModel.arith_op fold]; unfold fold_add, fold_sub, fold_mul, fold_floordiv, fold_floormod;
      rewrite ?PA, ?PB, ?FA, ?FB, ?KA, ?KB, ?isint_pint, ?PA, ?PB; rewrite ?(proj1 A), ?(proj1 B); 
      change (is_index (DInt 64)) with true; cbn [andb]; unfold some, rmap; cbn [bind make_const mk_int]; intros [= <-]; exact NODE.
Qed.

Lemma build_arith same o a b : build same (ScriptModel.arith_op o) a b =
  (let! (a, b) := match_types a b in let! r := fold same (ScriptModel.arith_op o) a b in
   Ok (or_node (ScriptModel.arith_op o) a b r)).
Proof. destruct o; reflexivity. Qed.

Lemma build_meets env same o a b e : wf a -> wf b -> dt a = DInt 64 \/ dt b = DInt 64 ->
  build same (ScriptModel.arith_op o) a b = Ok e -> i64 e /\ meets env o a b e.
Proof.
  intros Wa Wb D. rewrite build_arith. destruct (match_types a b) as [[a' b']| | |] eqn:M; try discriminate. cbn [bind].
  destruct (match_keeps env a b a' b' Wa Wb M) as (Ka & Kb & Wa' & Wb' & De & D1 & _). specialize (D1 D).
  assert (A : i64 a') by (split; [exact D1|apply Wa']). assert (B : i64 b') by (split; [congruence|apply Wb']).
  destruct (fold same (ScriptModel.arith_op o) a' b') as [r| | |] eqn:F; try discriminate. intros [= <-].
  destruct (fold_meets env same o a' b' r A B F) as [I (M1 & M2 & M3 & M4 & M5 & M6 & M7 & M8)]. split; [exact I|].
  destruct Ka as (Ka1 & Ka2 & Ka3), Kb as (Kb1 & Kb2 & Kb3).
  assert (Na : pint a = None -> pint a' = None).
  { intros N. destruct (pint a') eqn:Q; [|reflexivity]. specialize (Ka3 _ eq_refl). congruence. }
  assert (Nb : pint b = None -> pint b' = None).
  { intros N. destruct (pint b') eqn:Q; [|reflexivity]. specialize (Kb3 _ eq_refl). congruence. }
  repeat split; intros.
  - eapply M1; eauto.
  - apply M2; auto.
    + intros O Q. apply (H0 O), Kb3, Q.
    + intros O Q. apply (H1 O), Kb3, Q.
  - eapply M3; eauto. intros O Q. apply (H1 O), Ka3, Q.
  - eapply M4; eauto.
  - apply M5; auto. destruct H0; auto.
  - apply M6; auto.
  - apply M7; auto.
  - apply M8; auto.
Qed.
Definition b2z (b : bool) : Z := if b then 1 else 0.
Lemma b2z_bit b : bit (b2z b). Proof. destruct b; unfold bit, b2z; auto. Qed.
Lemma den_vbool env e b : dt e = DBool -> eval env e = Ok (vbool b) -> den env e (b2z b).
Proof. intros D E. exists CBool. split; [exact E|]. right; left. auto using b2z_bit. Qed.
Lemma wf_lit_bool b : wf (EInt DBool (b2z b)).
Proof. split; [right; left; reflexivity|]. intros z [= <-]. split; [discriminate|auto using b2z_bit]. Qed.
Lemma wf_lit_32 b : wf (EInt (DInt 32) (b2z b)).
Proof. split; [right; right; reflexivity|]. intros z [= <-]. split; [discriminate|auto using b2z_bit]. Qed.

(** *** Comparisons *)
Lemma cmp_op_ok o : is_cmp (cmp_op o) = true. Proof. destruct o; reflexivity. Qed.
Lemma zcmp_py o x y : zcmp (cmp_op o) x y = pcompare o x y. Proof. destruct o; reflexivity. Qed.
Lemma build_cmp same o a b : build same (cmp_op o) a b =
  (let! (a, b) := match_types a b in let! r := fold_cmp (cmp_op o) a b in Ok (or_node (cmp_op o) a b r)).
Proof. destruct o; reflexivity. Qed.
Lemma eval_cmp env o a b : eval env (EBin (cmp_op o) a b) =
  (let! v := eval env a in let! w := eval env b in bin_op (cmp_op o) v w).
Proof. destruct o; reflexivity. Qed.

Lemma cmp_meets env same o a b e : wf a -> wf b -> build same (cmp_op o) a b = Ok e ->
  wf e /\ dt e = DBool /\
  (forall x y, den env a x -> den env b y -> den env e (b2z (pcompare o x y))) /\
  (forall ex, eval env a = Exn ex -> eval env e = Exn ex) /\
  (forall x ex, den env a x -> eval env b = Exn ex -> eval env e = Exn ex) /\
  (pint a = None \/ pint b = None -> pint e = None).
Proof.
  intros Wa Wb. rewrite build_cmp. destruct (match_types a b) as [[a' b']| | |] eqn:M; try discriminate. cbn [bind].
  destruct (match_keeps env a b a' b' Wa Wb M) as ((Ka1 & Ka2 & Ka3) & (Kb1 & Kb2 & Kb3) & Wa' & Wb' & De & _ & _).
  assert (ND : wf (EBin (cmp_op o) a' b') /\ dt (EBin (cmp_op o) a' b') = DBool).
  { assert (D := dt_cmp (cmp_op o) a' b' (cmp_op_ok o)). split; [|exact D]. split; [right; left; exact D|]. intros z H. discriminate H. }
  assert (NODE : Ok (EBin (cmp_op o) a' b') = Ok e ->
    wf e /\ dt e = DBool /\
    (forall x y, den env a x -> den env b y -> den env e (b2z (pcompare o x y))) /\
    (forall ex, eval env a = Exn ex -> eval env e = Exn ex) /\
    (forall x ex, den env a x -> eval env b = Exn ex -> eval env e = Exn ex) /\
    (pint a = None \/ pint b = None -> pint e = None)).
  { intros [= <-]. split; [apply ND|]. split; [apply ND|]. split; [|split; [|split]].
    - intros x y X Y. apply Ka1 in X. apply Kb1 in Y. destruct X as (t & X & Tx), Y as (u & Y & Ty).
      apply den_vbool; [apply ND|]. rewrite eval_cmp, X, Y. cbn [bind bin_op].
      rewrite cmp_int; [|apply cmp_op_ok|eapply tyok_fits; eassumption|eapply tyok_fits; eassumption].
      rewrite zcmp_py. reflexivity.
    - intros ex X. rewrite eval_cmp, (Ka2 _ X). reflexivity.
    - intros x ex X Y. apply Ka1 in X. destruct X as (t & X & Tx). rewrite eval_cmp, X. cbn [bind]. rewrite (Kb2 _ Y). reflexivity.
    - reflexivity. }
  unfold fold_cmp. destruct (pint a') as [x|] eqn:PA; [destruct (pint b') as [y|] eqn:PB|].
  - cbn [bind or_node some rmap]. unfold some, rmap. cbn [mk_int DBool].
    destruct ((if zcmp (cmp_op o) x y then 1 else 0) <? 0) eqn:Q; [destruct (zcmp (cmp_op o) x y); discriminate Q|].
    cbn [bind or_node]. intros [= <-]. assert (E : (if zcmp (cmp_op o) x y then 1 else 0) = b2z (pcompare o x y)) by (rewrite zcmp_py; reflexivity).
    rewrite E. split; [apply wf_lit_bool|]. split; [reflexivity|]. split; [|split; [|split]].
    + intros x0 y0 X Y. apply Ka1 in X. apply Kb1 in Y.
      rewrite (lit_is env a' x x0 Wa' PA X), (lit_is env b' y y0 Wb' PB Y). apply lit_den; [apply wf_lit_bool|reflexivity].
    + intros ex X. apply Ka2, exn_nolit in X. congruence.
    + intros x0 ex _ Y. apply Kb2, exn_nolit in Y. congruence.
    + rewrite (Ka3 x eq_refl), (Kb3 y eq_refl). intros [|]; discriminate.
  - assert (F : pflt a' = None).
    { apply pflt_none. destruct (proj1 Wa') as [-> | [-> | ->]]; discriminate. }
    rewrite F. cbn [bind or_node]. exact NODE.
  - assert (F : pflt a' = None).
    { apply pflt_none. destruct (proj1 Wa') as [-> | [-> | ->]]; discriminate. }
    rewrite F. cbn [bind or_node]. exact NODE.
Qed.

(** *** and, or, not *)
Definition boolt (x : expr) : Prop := wf x /\ dt x <> DInt 64.
Lemma boolt_boolish x : boolt x -> boolish (dt x) = true.
Proof. intros [[D _] N]. destruct D as [D|[D|D]]; [contradiction| |]; rewrite D; reflexivity. Qed.
Lemma boolt_bit env x z : boolt x -> den env x z -> bit z.
Proof. intros [_ N] (t & _ & T). eapply tyok_bit; eassumption. Qed.
Lemma boolt_cast env x e : boolt x -> cast DBool x = Ok e -> keeps env x e /\ boolt e /\ dt e = DBool.
Proof.
  intros B. assert (B' := B). destruct B' as [W N]. unfold cast. destruct (dtype_eqb (dt x) DBool) eqn:Q.
  - apply dtype_eqb_eq in Q. intros [= <-]. split; [apply keeps_refl|]. auto.
  - assert (D : dt x = DInt 32).
    { destruct W as [[D|[D|D]] _]; [contradiction| |exact D]. rewrite D in Q. discriminate. }
    assert (G : Ok (ECast DBool x) = Ok e -> keeps env x e /\ boolt e /\ dt e = DBool).
    { intros [= <-]. split; [|split; [|reflexivity]].
      - split; [|split].
        + intros z Z. assert (Bz := boolt_bit _ _ _ B Z). destruct Z as (t & E & T). exists CBool. split.
          * cbn [eval]. rewrite E. cbn [bind]. rewrite Q. cbn [cast_val DBool ctype Z.eqb Pos.eqb conv]. destruct Bz as [-> | ->]; reflexivity.
          * right; left. auto.
        + intros; apply eval_cast_exn; assumption.
        + discriminate.
      - split; [|discriminate]. split; [right; left; reflexivity|apply lwf_cast]. }
    destruct x; try exact G; [|cbn [dt] in D; discriminate].
    cbn [dt] in D. subst d. cbn [make_const DBool].
    assert (Bv : bit v) by (apply (proj2 W v eq_refl); discriminate).
    destruct (v <? 0) eqn:V; [destruct Bv; subst; discriminate|]. unfold mk_int, DBool. rewrite V. intros [= <-].
    assert (Wl : wf (EInt (DUInt 1) v)).
    { split; [right; left; reflexivity|]. intros z [= <-]. split; [discriminate|auto]. }
    split; [|split; [|reflexivity]].
    + split; [|split].
      * intros z Z. assert (z = v) by (eapply lit_is; [exact W|reflexivity|exact Z]). subst z. apply lit_den; [exact Wl|reflexivity].
      * intros ex E. discriminate.
      * intros z H. exact H.
    + split; [exact Wl|discriminate].
Qed.

Definition logic_val (o : binop) (z : Z) : bool := match o with And => negb (z =? 0) | _ => z =? 0 end.
(** [going o x]: the right operand is evaluated when the left one is [x] *)
Lemma logic_meets env same o a b e : o = And \/ o = Or -> boolt a -> boolt b -> build same o a b = Ok e ->
  boolt e /\
  (forall x, den env a x -> logic_val o x = false -> den env e x) /\
  (forall x y, den env a x -> logic_val o x = true -> den env b y -> den env e y) /\
  (forall ex, eval env a = Exn ex -> pint b = None -> eval env e = Exn ex) /\
  (forall x ex, den env a x -> logic_val o x = true -> eval env b = Exn ex -> eval env e = Exn ex) /\
  (pint a = None -> pint b = None -> pint e = None).
Proof.
  intros O A B. assert (BD : build same o a b = (let! r := (match o with And => fold_and a b | _ => fold_or a b end) in Ok (or_node o a b r))).
  { unfold build. rewrite (boolt_boolish _ A), (boolt_boolish _ B). destruct O as [-> | ->]; reflexivity. }
  rewrite BD. clear BD.
  assert (Wa := proj1 A). assert (Wb := proj1 B).
  assert (CA : forall e, cast DBool a = Ok e -> keeps env a e /\ boolt e /\ dt e = DBool) by (intros; apply boolt_cast; assumption).
  assert (CB : forall e, cast DBool b = Ok e -> keeps env b e /\ boolt e /\ dt e = DBool) by (intros; apply boolt_cast; assumption).
  assert (LV : forall x, bit x -> logic_val o x = (match o with And => x =? 1 | _ => x =? 0 end)).
  { intros x [-> | ->]; destruct O as [-> | ->]; reflexivity. }
  destruct (pint a) as [x|] eqn:PA, (pint b) as [y|] eqn:PB.
  - assert (Bx : bit x) by (apply (proj2 Wa x PA), A). assert (By : bit y) by (apply (proj2 Wb y PB), B).
    assert (E : (let! r := match o with And => fold_and a b | _ => fold_or a b end in Ok (or_node o a b r)) =
                Ok (EInt (DInt 32) (b2z (match o with And => negb (x =? 0) && negb (y =? 0) | _ => negb (x =? 0) || negb (y =? 0) end)))).
    { unfold fold_and, fold_or. rewrite PA, PB. destruct O as [-> | ->]; reflexivity. }
    rewrite E. intros [= <-]. split; [split; [apply wf_lit_32|discriminate]|]. split; [|split; [|split; [|split]]].
    + intros x0 X L. assert (x0 = x) by (exact (lit_is env a x x0 Wa PA X)). subst x0. rewrite LV in L by assumption.
      match goal with |- den _ ?e _ => assert (D : den env e (b2z (match o with And => negb (x =? 0) && negb (y =? 0) | _ => negb (x =? 0) || negb (y =? 0) end))) by (apply lit_den; [apply wf_lit_32|reflexivity]) end.
      destruct Bx as [-> | ->], By as [-> | ->], O as [-> | ->]; try discriminate L; exact D.
    + intros x0 y0 X L Y. assert (x0 = x) by (exact (lit_is env a x x0 Wa PA X)). assert (y0 = y) by (exact (lit_is env b y y0 Wb PB Y)). subst x0 y0. rewrite LV in L by assumption.
      match goal with |- den _ ?e _ => assert (D : den env e (b2z (match o with And => negb (x =? 0) && negb (y =? 0) | _ => negb (x =? 0) || negb (y =? 0) end))) by (apply lit_den; [apply wf_lit_32|reflexivity]) end.
      destruct Bx as [-> | ->], By as [-> | ->], O as [-> | ->]; try discriminate L; exact D.
    + intros ex X. apply exn_nolit in X. congruence.
    + intros x0 ex _ _ Y. apply exn_nolit in Y. congruence.
    + discriminate.
  - assert (Bx : bit x) by (apply (proj2 Wa x PA), A).
    destruct (logic_val o x) eqn:L.
    + assert (E : (let! r := match o with And => fold_and a b | _ => fold_or a b end in Ok (or_node o a b r)) = cast DBool b).
      { unfold fold_and, fold_or. rewrite PA, PB. rewrite LV in L by assumption.
        destruct Bx as [-> | ->], O as [-> | ->]; try discriminate L; cbn [Z.eqb negb]; unfold some, rmap; destruct (cast DBool b); reflexivity. }
      rewrite E. intros C. destruct (CB e C) as ((K1 & K2 & K3) & Be & De). split; [exact Be|]. split; [|split; [|split; [|split]]].
      * intros x0 X L0. assert (x0 = x) by (exact (lit_is env a x x0 Wa PA X)). subst x0. congruence.
      * intros x0 y0 _ _ Y. apply K1, Y.
      * intros ex X. apply exn_nolit in X. congruence.
      * intros x0 ex _ _ Y. apply K2, Y.
      * discriminate.
    + assert (E : (let! r := match o with And => fold_and a b | _ => fold_or a b end in Ok (or_node o a b r)) = cast DBool a).
      { unfold fold_and, fold_or. rewrite PA, PB. rewrite LV in L by assumption.
        destruct Bx as [-> | ->], O as [-> | ->]; try discriminate L; cbn [Z.eqb negb]; unfold some, rmap; destruct (cast DBool a); reflexivity. }
      rewrite E. intros C. destruct (CA e C) as ((K1 & K2 & K3) & Be & De). split; [exact Be|]. split; [|split; [|split; [|split]]].
      * intros x0 X L0. apply K1, X.
      * intros x0 y0 X L0 _. assert (x0 = x) by (exact (lit_is env a x x0 Wa PA X)). subst x0. congruence.
      * intros ex X. apply exn_nolit in X. congruence.
      * intros x0 ex X L0 _. assert (x0 = x) by (exact (lit_is env a x x0 Wa PA X)). subst x0. congruence.
      * discriminate.
  - assert (By : bit y) by (apply (proj2 Wb y PB), B).
    destruct (logic_val o y) eqn:L.
    + assert (E : (let! r := match o with And => fold_and a b | _ => fold_or a b end in Ok (or_node o a b r)) = cast DBool a).
      { unfold fold_and, fold_or. rewrite PA, PB. rewrite LV in L by assumption.
        destruct By as [-> | ->], O as [-> | ->]; try discriminate L; cbn [Z.eqb negb]; unfold some, rmap; destruct (cast DBool a); reflexivity. }
      rewrite E. intros C. destruct (CA e C) as ((K1 & K2 & K3) & Be & De). split; [exact Be|]. split; [|split; [|split; [|split]]].
      * intros x0 X L0. apply K1, X.
      * intros x0 y0 X L0 Y. assert (y0 = y) by (exact (lit_is env b y y0 Wb PB Y)). subst y0.
        assert (Bx := boolt_bit _ _ _ A X). rewrite LV in L, L0 by assumption.
        assert (x0 = y). { destruct Bx as [-> | ->], By as [-> | ->], O as [-> | ->]; try discriminate; reflexivity. } subst x0. apply K1, X.
      * discriminate.
      * intros x0 ex _ _ Y. apply exn_nolit in Y. congruence.
      * discriminate.
    + assert (E : (let! r := match o with And => fold_and a b | _ => fold_or a b end in Ok (or_node o a b r)) = cast DBool b).
      { unfold fold_and, fold_or. rewrite PA, PB. rewrite LV in L by assumption.
        destruct By as [-> | ->], O as [-> | ->]; try discriminate L; cbn [Z.eqb negb]; unfold some, rmap; destruct (cast DBool b); reflexivity. }
      rewrite E. intros C. destruct (CB e C) as ((K1 & K2 & K3) & Be & De). split; [exact Be|]. split; [|split; [|split; [|split]]].
      * intros x0 X L0. assert (Bx := boolt_bit _ _ _ A X). rewrite LV in L, L0 by assumption.
        assert (x0 = y). { destruct Bx as [-> | ->], By as [-> | ->], O as [-> | ->]; try discriminate; reflexivity. } subst x0.
        apply K1, lit_den; assumption.
      * intros x0 y0 X L0 Y. apply K1, Y.
      * discriminate.
      * intros x0 ex _ _ Y. apply exn_nolit in Y. congruence.
      * discriminate.
  - assert (E : (let! r := match o with And => fold_and a b | _ => fold_or a b end in Ok (or_node o a b r)) = Ok (EBin o a b)).
    { unfold fold_and, fold_or. rewrite PA, PB. destruct O as [-> | ->]; reflexivity. }
    rewrite E. intros [= <-]. assert (D : dt (EBin o a b) = DBool) by (destruct O as [-> | ->]; reflexivity).
    assert (TR : forall x, bit x -> forall t, truthy (VI t x) = (x =? 1)) by (intros x [-> | ->] t; reflexivity).
    split; [split; [|rewrite D; discriminate]|].
    { split; [right; left; exact D|]. intros z H. discriminate. }
    split; [|split; [|split; [|split]]].
    + intros x X L. assert (Bx := boolt_bit _ _ _ A X). destruct X as (t & X & T). rewrite LV in L by assumption.
      assert (Ev : eval env (EBin o a b) = Ok (vbool (x =? 1))).
      { destruct O as [-> | ->]; cbn [eval]; rewrite X; cbn [bind]; rewrite TR by assumption; destruct Bx as [-> | ->]; try discriminate L; reflexivity. }
      assert (K := den_vbool env _ _ D Ev). destruct Bx as [-> | ->]; exact K.
    + intros x y X L Y. assert (Bx := boolt_bit _ _ _ A X). assert (By := boolt_bit _ _ _ B Y). destruct X as (t & X & T), Y as (u & Y & U).
      rewrite LV in L by assumption.
      assert (Ev : eval env (EBin o a b) = Ok (vbool (y =? 1))).
      { destruct O as [-> | ->]; cbn [eval]; rewrite X; cbn [bind]; rewrite TR by assumption; destruct Bx as [-> | ->]; try discriminate L;
          cbn [Z.eqb Pos.eqb]; rewrite Y; cbn [bind]; rewrite TR by assumption; reflexivity. }
      assert (K := den_vbool env _ _ D Ev). destruct By as [-> | ->]; exact K.
    + intros ex X _. destruct O as [-> | ->]; cbn [eval]; rewrite X; reflexivity.
    + intros x ex X L Y. assert (Bx := boolt_bit _ _ _ A X). destruct X as (t & X & T). rewrite LV in L by assumption.
      destruct O as [-> | ->]; cbn [eval]; rewrite X; cbn [bind]; rewrite TR by assumption; destruct Bx as [-> | ->]; try discriminate L;
          cbn [Z.eqb Pos.eqb]; rewrite Y; reflexivity.
    + reflexivity.
Qed.

Lemma not_meets env a e : dt a = DBool -> wf a -> build_not a = Ok e ->
  wf e /\ dt e = DBool /\ (forall z, den env a z -> den env e (b2z (z =? 0))) /\
  (forall ex, eval env a = Exn ex -> eval env e = Exn ex) /\ (pint a = None -> pint e = None).
Proof.
  intros D W. unfold build_not. rewrite D. change (boolish DBool) with true. cbv iota.
  destruct (pint a) as [x|] eqn:P.
  - cbn [mk_int DBool]. destruct ((if x =? 0 then 1 else 0) <? 0) eqn:Q; [destruct (x =? 0); discriminate|]. intros [= <-].
    split; [apply wf_lit_bool|]. split; [reflexivity|]. split; [|split].
    + intros z Z. assert (z = x) by (eapply lit_is; eassumption). subst z. apply lit_den; [apply wf_lit_bool|reflexivity].
    + intros ex E. apply exn_nolit in E. congruence.
    + discriminate.
  - intros [= <-]. split; [split; [right; left; reflexivity|intros z H; discriminate]|]. split; [reflexivity|]. split; [|split].
    + intros z (t & E & T). apply den_vbool; [reflexivity|]. cbn [eval]. rewrite E. cbn [bind truthy].
      rewrite Bool.negb_involutive. reflexivity.
    + intros ex E. cbn [eval]. rewrite E. reflexivity.
    + reflexivity.
Qed.

Lemma sel_meets env c a b e : wf c -> wf a -> wf b -> build_sel c a b = Ok e ->
  dt c = DBool /\ wf e /\ (dt e = DInt 64 <-> dt a = DInt 64 \/ dt b = DInt 64) /\
  (forall z w, den env c z -> den env (if z =? 0 then b else a) w -> den env e w) /\
  (forall ex, eval env c = Exn ex -> eval env e = Exn ex) /\
  (forall z ex, den env c z -> eval env (if z =? 0 then b else a) = Exn ex -> eval env e = Exn ex) /\
  (pint a = None -> pint b = None -> pint e = None).
Proof.
  intros Wc Wa Wb. unfold build_sel. destruct (dtype_eqb (dt c) DBool) eqn:Q; [|discriminate]. apply dtype_eqb_eq in Q.
  destruct (match_types a b) as [[a' b']| | |] eqn:M; try discriminate. cbn [bind].
  destruct (match_keeps env a b a' b' Wa Wb M) as ((Ka1 & Ka2 & Ka3) & (Kb1 & Kb2 & Kb3) & Wa' & Wb' & De & D1 & D2).
  assert (DD : dt a' = DInt 64 <-> dt a = DInt 64 \/ dt b = DInt 64).
  { split; [|exact D1]. intros H. destruct (dtype_eqb (dt a) (DInt 64)) eqn:E; [left; apply dtype_eqb_eq, E|].
    destruct (dtype_eqb (dt b) (DInt 64)) eqn:E'; [right; apply dtype_eqb_eq, E'|]. exfalso.
    assert (Xa : dt a <> DInt 64) by (intros X; rewrite X in E; discriminate).
    assert (Xb : dt b <> DInt 64) by (intros X; rewrite X in E'; discriminate).
    exact (D2 Xa Xb H). }
  assert (Na : pint a = None -> pint a' = None).
  { intros N. destruct (pint a') eqn:P; [|reflexivity]. specialize (Ka3 _ eq_refl). congruence. }
  assert (Nb : pint b = None -> pint b' = None).
  { intros N. destruct (pint b') eqn:P; [|reflexivity]. specialize (Kb3 _ eq_refl). congruence. }
  assert (PV : forall z w, den env (if z =? 0 then b else a) w -> den env (if z =? 0 then b' else a') w).
  { intros z w. destruct (z =? 0); auto. }
  assert (PX : forall z ex, eval env (if z =? 0 then b else a) = Exn ex -> eval env (if z =? 0 then b' else a') = Exn ex).
  { intros z w. destruct (z =? 0); auto. }
  intros EE. split; [exact Q|]. revert EE. destruct (pint c) as [v|] eqn:P.
  - intros [= <-]. split; [destruct (v =? 0); assumption|]. split; [destruct (v =? 0); cbn [negb]; [rewrite <- De; exact DD|exact DD]|].
    assert (EQ : (if negb (v =? 0) then a' else b') = (if v =? 0 then b' else a')) by (destruct (v =? 0); reflexivity). rewrite EQ.
    split; [|split; [|split]].
    + intros z w Z W. assert (z = v) by (exact (lit_is env c v z Wc P Z)). subst z. apply PV, W.
    + intros ex E. apply exn_nolit in E. congruence.
    + intros z ex Z E. assert (z = v) by (exact (lit_is env c v z Wc P Z)). subst z. apply PX, E.
    + intros A B. destruct (v =? 0); auto.
  - intros [= <-]. split; [split; [exact (proj1 Wa')|intros z H; discriminate]|]. split; [exact DD|]. split; [|split; [|split]].
    + intros z w (t & E & T) W. apply PV in W. destruct W as (u & Ew & U). exists u. cbn [eval dt]. rewrite E. cbn [bind truthy].
      destruct (z =? 0); cbn [negb]; split; try assumption. rewrite De. exact U.
    + intros ex E. cbn [eval]. rewrite E. reflexivity.
    + intros z ex (t & E & T) X. apply PX in X. cbn [eval]. rewrite E. cbn [bind truthy]. destruct (z =? 0); exact X.
    + reflexivity.
Qed.
(** ** Values *)
Lemma parith_num o v w r : parith true o v w = r -> forall x y, number v = Some x -> number w = Some y ->
  r = rmap VInt (zar o x y).
Proof.
  intros <- x y X Y. unfold parith.
  assert (E : forall A (p q : A), match v, w with VStr _, VStr _ => p | _, _ => q end = q).
  { intros A p q. destruct v, w; try reflexivity. discriminate X. }
  rewrite X, Y.
  transitivity (match o with
          | PAdd => within true (x + y) | PSub => within true (x - y) | PMul => within true (x * y)
          | PFloorDiv => if y =? 0 then Exn ZeroDivisionError else within true (x / y)
          | PMod => if y =? 0 then Exn ZeroDivisionError else within true (x mod y) end).
  { destruct v, w; try reflexivity; discriminate. }
  unfold zar, within. cbn [andb].
  destruct o; try (destruct (int64b _); reflexivity); destruct (y =? 0); try reflexivity; destruct (int64b _); reflexivity.
Qed.

Lemma bool_number v z : (exists b, v = VBool b) -> number v = Some z -> truth v = negb (z =? 0) /\ v = VBool (negb (z =? 0)).
Proof. intros [b ->]. cbn. intros [= <-]. destruct b; auto. Qed.
Lemma truth_number v z : number v = Some z -> truth v = negb (z =? 0).
Proof. destruct v; try discriminate; cbn; intros [= <-]; [reflexivity|]. destruct b; reflexivity. Qed.

Section ParseOk.
Variables (same : expr -> expr -> bool) (glob : nat -> option pval) (scopes : list scope).
Variables (look : nat -> res pval) (m : store) (loc : nat -> bool).
Hypothesis HR : forall x fl v t, lookup x scopes = Some (fl, (v, t)) ->
  loc x = true /\ exists pv c, look x = Ok pv /\ m v = Some c /\ shows t pv c.
Hypothesis HG : forall x c, lookup x scopes = None -> glob x = Some c -> look x = Ok c /\ loc x = false.

Let env := cleaf m.
Let ev := peval true look.

Definition prim_good (e : pexp) (x : expr) : Prop :=
  wf x /\ (firm loc e = true -> pint x = None) /\ (forall z, e = XInt z -> x = EInt (DInt 64) z) /\
  (forall v, ev e = Ok v -> exists z, den env x z /\ number v = Some z /\ (dt x <> DInt 64 -> exists b, v = VBool b)) /\
  (forall ex, ev e = Exn ex -> calm loc e = true -> eval env x = Exn ex) /\
  (free e = true -> forall ex, ev e <> Exn ex).
Definition str_good (e : pexp) (s : sexp) : Prop :=
  (forall v, ev e = Ok v -> exists l, v = VStr l /\ ceval_s m s = Ok l) /\ (forall ex, ev e <> Exn ex).
Definition good (e : pexp) (p : cexp) : Prop :=
  match p with CP x => prim_good e x | CStr s => str_good e s end.
Definition tail_good (t : ptail) : Prop :=
  forall acc l x, parse_tail same glob scopes acc l t = Ok x -> boolt acc -> wf l ->
  boolt x /\
  (den env acc 0 -> den env x 0) /\
  (forall w zl v, den env acc 1 -> den env l zl -> number w = Some zl -> ptails true look w t = Ok v ->
     exists b, v = VBool b /\ den env x (b2z b)) /\
  (free_tail t = true -> forall w zl ex, number w = Some zl -> ptails true look w t <> Exn ex).

Lemma constant_good v p e : constant v = Ok p -> ev e = Ok v -> firm loc e = false ->
  (forall z, e = XInt z -> v = VInt z) -> good e p.
Proof.
  intros C E F X. destruct v; cbn [constant] in C.
  - destruct (int64b z) eqn:I; [|discriminate]. injection C as <-. apply range64_b in I.
    assert (W := i64_wf _ (i64_EInt z I)).
    split; [exact W|]. split; [congruence|]. split; [intros z' Z; specialize (X z' Z); congruence|].
    split; [|split; [congruence|congruence]].
    intros v. rewrite E. intros [= <-]. exists z. split; [apply lit_den; [exact W|reflexivity]|]. split; [reflexivity|]. intros N. destruct (N eq_refl).
  - injection C as <-. split; [apply wf_lit_bool|]. split; [congruence|]. split; [intros z' Z; specialize (X z' Z); discriminate|].
    split; [|split; [congruence|congruence]].
    intros v. rewrite E. intros [= <-]. exists (b2z b). split; [apply lit_den; [apply wf_lit_bool|reflexivity]|]. split; [reflexivity|]. eauto.
  - injection C as <-. split; [|congruence]. intros v. rewrite E. intros [= <-]. exists s. auto.
  - discriminate.
Qed.
Lemma var_good x fl v t : lookup x scopes = Some (fl, (v, t)) -> good (XName x) (var (v, t)).
Proof.
  intros L. destruct (HR x fl v t L) as (Lx & pv & c & E & M & S).
  assert (NX : forall ex, ev (XName x) <> Exn ex) by (intros ex; cbn; congruence).
  destruct t; cbn [var snd fst shows] in *.
  - destruct S as (z & N & I & ->). split; [split; [left; reflexivity|intros z' H; discriminate]|].
    split; [reflexivity|]. split; [discriminate|]. split; [|split; [intros ex H; destruct (NX ex H)|auto]].
    intros w. cbn. rewrite E. intros [= <-]. exists z. split; [|split; [exact N|intros K; destruct (K eq_refl)]].
    exists s64. split; [cbn [eval]; unfold env, cleaf; rewrite M; reflexivity|]. left. split; [reflexivity|]. split; [reflexivity|]. apply int64_range, I.
  - destruct S as (b & -> & ->). split; [split; [right; left; reflexivity|intros z' H; discriminate]|].
    split; [reflexivity|]. split; [discriminate|]. split; [|split; [intros ex H; destruct (NX ex H)|auto]].
    intros w. cbn. rewrite E. intros [= <-]. exists (b2z b). split; [|split; [reflexivity|eauto]].
    apply den_vbool; [reflexivity|]. cbn [eval]. unfold env, cleaf. rewrite M. reflexivity.
  - destruct S as (s & -> & ->). split; [|exact NX]. intros w. cbn. rewrite E. intros [= <-]. exists s. split; [reflexivity|]. rewrite M. reflexivity.
Qed.

Lemma prim_inv p x : prim p = Ok x -> p = CP x.
Proof. destruct p; [|discriminate]. cbn. congruence. Qed.
Lemma prim_bool_inv p x : prim_bool p = Ok x -> p = CP x /\ dt x = DBool.
Proof.
  unfold prim_bool. destruct p; [|discriminate]. cbn [prim bind]. destruct (dtype_eqb (dt e) DBool) eqn:Q; [|discriminate].
  apply dtype_eqb_eq in Q. intros [= <-]. auto.
Qed.
Lemma bind_ok {A B} (r : res A) (k : A -> res B) y : bind r k = Ok y -> exists a, r = Ok a /\ k a = Ok y.
Proof. destruct r; try discriminate. cbn. eauto. Qed.
Lemma rmap_ok {A B} (f : A -> B) (r : res A) y : rmap f r = Ok y -> exists a, r = Ok a /\ y = f a.
Proof. destruct r; try discriminate. cbn. intros [= <-]. eauto. Qed.
Lemma bind_exn {A B} (r : res A) (k : A -> res B) x : bind r k = Exn x -> r = Exn x \/ exists a, r = Ok a /\ k a = Exn x.
Proof. destruct r; try discriminate; cbn; intros E; [right; eauto|left; congruence]. Qed.

(** one arithmetic operator *)
Lemma arith_good o a b x y r : prim_good a x -> prim_good b y -> dt x = DInt 64 \/ dt y = DInt 64 ->
  build same (ScriptModel.arith_op o) x y = Ok r -> prim_good (XBin o a b) r.
Proof.
  intros Ga Gb D B. pose proof Ga as (Wa & Fa & Za & Va & Ea & Na). pose proof Gb as (Wb & Fb & Zb & Vb & Eb & Nb).
  destruct (build_meets env same o x y r Wa Wb D B) as (I & M1 & M2 & M3 & M4 & M5 & M6 & M7 & M8).
  split; [apply i64_wf, I|]. split; [|split; [discriminate|]].
  { intros F. destruct o; cbn [firm] in F.
    - apply M5; [auto|]. apply orb_prop in F. destruct F; auto.
    - apply M5; [auto|]. apply orb_prop in F. destruct F; auto.
    - apply andb_prop in F. apply M7; [apply Fa, F|apply Fb, F].
    - apply M6; auto.
    - apply andb_prop in F. apply M7; [apply Fa, F|apply Fb, F]. }
  assert (NZ : forall e z, prim_good e z -> nonzero e = true -> pint z <> Some 0).
  { intros e z (_ & _ & K & _) N. destruct e; try discriminate N. rewrite (K _ eq_refl). cbn in *. intros [= ->]. discriminate. }
  split; [|split].
  - intros v. unfold ev. cbn [peval]. intros E. apply bind_ok in E. destruct E as (va & E1 & E). apply bind_ok in E. destruct E as (vb & E2 & E).
    destruct (Va va E1) as (za & Da & Nza & _), (Vb vb E2) as (zb & Db & Nzb & _).
    rewrite (parith_num _ _ _ _ eq_refl _ _ Nza Nzb) in E. apply rmap_ok in E. destruct E as (z & Z & ->).
    exists z. split; [eapply M1; eassumption|]. split; [reflexivity|]. intros K. destruct (K (proj1 I)).
  - intros ex. unfold ev. cbn [peval]. intros E C. cbn [calm] in C. apply andb_prop in C. destruct C as [C C3]. apply andb_prop in C. destruct C as [C1 C2].
    apply bind_exn in E. destruct E as [E|(va & E1 & E)].
    + apply M2; [apply Ea; assumption| |].
      * intros ->. apply andb_prop in C3. destruct C3 as [C3 _]. apply orb_prop in C3. destruct C3 as [C3|C3]; [apply orb_prop in C3; destruct C3 as [C3|C3]|].
        -- destruct (Na C3 ex E). -- rewrite (Fb C3). discriminate. -- apply (NZ b y Gb C3).
      * intros ->. apply andb_prop in C3. destruct C3 as [_ C3]. apply orb_prop in C3. destruct C3 as [C3|C3]; [apply orb_prop in C3; destruct C3 as [C3|C3]|].
        -- destruct (Na C3 ex E). -- rewrite (Fb C3). discriminate.
        -- destruct b; try discriminate C3. rewrite (Zb _ eq_refl). cbn in *. apply andb_prop in C3. destruct C3 as [_ C3]. intros [= ->]. discriminate.
    + destruct (Va va E1) as (za & Da & Nza & _). apply bind_exn in E. destruct E as [E|(vb & E2 & E)].
      * apply M3 with za; [exact Da|apply Eb; assumption|]. intros O. destruct o.
        -- destruct O as [O|[O|O]]; discriminate.
        -- destruct O as [O|[O|O]]; discriminate.
        -- apply andb_prop in C3. destruct C3 as [_ C3]. apply orb_prop in C3. destruct C3 as [C3|C3]; [apply orb_prop in C3; destruct C3 as [C3|C3]|].
           ++ destruct (Nb C3 ex E). ++ rewrite (Fa C3). discriminate. ++ apply (NZ a x Ga C3).
        -- apply orb_prop in C3. destruct C3 as [C3|C3]; [rewrite (Fa C3); discriminate|apply (NZ a x Ga C3)].
        -- apply andb_prop in C3. destruct C3 as [C3 _]. apply orb_prop in C3. destruct C3 as [C3|C3]; [rewrite (Fa C3); discriminate|apply (NZ a x Ga C3)].
      * destruct (Vb vb E2) as (zb & Db & Nzb & _). rewrite (parith_num _ _ _ _ eq_refl _ _ Nza Nzb) in E.
        destruct (zar o za zb) as [|ex'| |] eqn:Z; try discriminate E. injection E as ->.
        assert (ZZ : zb = 0 /\ (o = PFloorDiv \/ o = PMod) /\ ex = ZeroDivisionError).
        { unfold zar in Z. destruct o; try (destruct (int64b _); discriminate Z);
            (destruct (Z.eqb_spec zb 0); [injection Z as <-; auto|destruct (int64b _); discriminate Z]). }
        destruct ZZ as (-> & O & ->). apply M4 with za; auto.
        destruct O as [-> | ->].
        -- apply orb_prop in C3. destruct C3 as [C3|C3]; [rewrite (Fa C3); discriminate|apply (NZ a x Ga C3)].
        -- apply andb_prop in C3. destruct C3 as [C3 _]. apply orb_prop in C3. destruct C3 as [C3|C3]; [rewrite (Fa C3); discriminate|apply (NZ a x Ga C3)].
  - intros F ex. unfold ev. cbn [peval]. intros E. apply bind_exn in E.
    assert (FF : free a = true /\ free b = true /\ o <> PFloorDiv /\ o <> PMod).
    { destruct o; cbn [free] in F; try discriminate F; apply andb_prop in F; repeat split; try apply F; discriminate. }
    destruct FF as (F1 & F2 & O1 & O2).
    destruct E as [E|(va & E1 & E)]; [exact (Na F1 _ E)|]. apply bind_exn in E. destruct E as [E|(vb & E2 & E)]; [exact (Nb F2 _ E)|].
    destruct (Va va E1) as (za & Da & Nza & _), (Vb vb E2) as (zb & Db & Nzb & _). rewrite (parith_num _ _ _ _ eq_refl _ _ Nza Nzb) in E.
    unfold zar in E. destruct o; try contradiction; destruct (int64b _); discriminate E.
Qed.

Lemma parse_good : (forall e p, parse same glob scopes e = Ok p -> good e p) /\ (forall t, tail_good t).
Proof.
  apply pexp_ind2.
  - intros z p C. apply constant_good with (VInt z); auto; [|congruence].
    cbn [parse constant] in C. destruct (int64b z) eqn:I; [|discriminate].
    cbn. unfold within. cbn [andb]. rewrite I. reflexivity.
  - intros b p C. apply constant_good with (VBool b); auto. discriminate.
  - intros s p C. apply constant_good with (VStr s); auto. discriminate.
  - intros x p. cbn [parse]. destruct (lookup x scopes) as [[fl [v t]]|] eqn:L.
    + intros [= <-]. eapply var_good, L.
    + destruct (glob x) as [c|] eqn:G; [|discriminate]. destruct (HG x c L G) as [E F]. intros C.
      apply constant_good with c; auto. discriminate.
  - (* XBin *) intros o a IHa b IHb p. cbn [parse]. intros E. apply bind_ok in E. destruct E as (pa & Pa & E).
    apply bind_ok in E. destruct E as (pb & Pb & E). specialize (IHa pa Pa). specialize (IHb pb Pb).
    destruct pa as [x|sa], pb as [y|sb]; try discriminate E.
    + destruct (dtype_eqb (dt x) (DInt 64) || dtype_eqb (dt y) (DInt 64)) eqn:D; [|discriminate].
      apply rmap_ok in E. destruct E as (r & R & ->). cbn [good] in *. eapply arith_good; try eassumption.
      apply orb_prop in D. destruct D as [D|D]; apply dtype_eqb_eq in D; auto.
    + destruct o; try discriminate E. injection E as <-. destruct IHa as [Va Na], IHb as [Vb Nb]. split.
      * intros v. unfold ev. cbn [peval]. intros E. apply bind_ok in E. destruct E as (va & E1 & E). apply bind_ok in E. destruct E as (vb & E2 & E).
        destruct (Va va E1) as (la & -> & L1), (Vb vb E2) as (lb & -> & L2). cbn [parith] in E. injection E as <-.
        exists (la ++ lb). split; [reflexivity|]. cbn [ceval_s]. rewrite L1, L2. reflexivity.
      * intros ex. unfold ev. cbn [peval]. intros E. apply bind_exn in E. destruct E as [E|(va & E1 & E)]; [exact (Na _ E)|].
        apply bind_exn in E. destruct E as [E|(vb & E2 & E)]; [exact (Nb _ E)|].
        destruct (Va va E1) as (la & -> & L1), (Vb vb E2) as (lb & -> & L2). discriminate E.
  - (* XNeg *) intros a IHa p. cbn [parse]. intros E. apply bind_ok in E. destruct E as (pa & Pa & E).
    apply bind_ok in E. destruct E as (x & Px & E). apply prim_inv in Px. subst pa. specialize (IHa _ Pa). cbn [good] in IHa.
    apply rmap_ok in E. destruct E as (r & R & ->). cbn [good].
    assert (Im : i64 (EInt (DInt 64) (-1))) by (apply i64_EInt; unfold range; change (64 - 1) with 63; lia).
    destruct IHa as (Wa & Fa & _ & Va & Ea & Na).
    destruct (build_meets env same PMul x (EInt (DInt 64) (-1)) r Wa (i64_wf _ Im) (or_intror eq_refl) R) as (I & M1 & M2 & M3 & M4 & M5 & M6 & M7 & M8).
    split; [apply i64_wf, I|]. split; [|split; [discriminate|split; [|split]]].
    + cbn [firm]. intros F. apply M8; auto. discriminate.
    + intros v. unfold ev. cbn [peval]. intros E. apply bind_ok in E. destruct E as (va & E1 & E).
      destruct (Va va E1) as (z & D & N & _). rewrite N in E. unfold within in E. cbn [andb] in E.
      destruct (int64b (- z)) eqn:Iz; [|discriminate]. injection E as <-. exists (- z). split; [|split; [reflexivity|]].
      * apply M1 with z (-1); [exact D|apply lit_den; [apply i64_wf, Im|reflexivity]|]. unfold zar.
        replace (z * -1) with (- z) by lia. rewrite Iz. reflexivity.
      * intros K. destruct (K (proj1 I)).
    + intros ex. unfold ev. cbn [peval calm]. intros E C. apply bind_exn in E. destruct E as [E|(va & E1 & E)].
      * apply M2; [apply Ea; assumption|discriminate|discriminate].
      * destruct (Va va E1) as (z & D & N & _). rewrite N in E. unfold within in E. destruct (true && negb (int64b (- z))); discriminate.
    + cbn [free]. intros F ex. unfold ev. cbn [peval]. intros E. apply bind_exn in E. destruct E as [E|(va & E1 & E)]; [exact (Na F _ E)|].
      destruct (Va va E1) as (z & D & N & _). rewrite N in E. unfold within in E. destruct (true && negb (int64b (- z))); discriminate.
  - (* XNot *) intros a IHa p. cbn [parse]. intros E. apply bind_ok in E. destruct E as (pa & Pa & E).
    apply bind_ok in E. destruct E as (x & Px & E). apply prim_bool_inv in Px. destruct Px as [-> D]. specialize (IHa _ Pa). cbn [good] in IHa.
    apply rmap_ok in E. destruct E as (r & R & ->). cbn [good]. destruct IHa as (Wa & Fa & _ & Va & Ea & Na).
    destruct (not_meets env x r D Wa R) as (W & Dr & M1 & M2 & M3).
    split; [exact W|]. split; [auto|]. split; [discriminate|]. split; [|split].
    + intros v. unfold ev. cbn [peval]. intros E. apply bind_ok in E. destruct E as (va & E1 & [= <-]).
      destruct (Va va E1) as (z & Dz & N & _). exists (b2z (z =? 0)). split; [apply M1, Dz|]. rewrite (truth_number _ _ N), Bool.negb_involutive.
      split; [reflexivity|eauto].
    + intros ex. unfold ev. cbn [peval calm]. intros E C. apply bind_exn in E. destruct E as [E|(va & E1 & E)]; [|discriminate]. apply M2, Ea; assumption.
    + cbn [free]. intros F ex. unfold ev. cbn [peval]. intros E. apply bind_exn in E. destruct E as [E|(va & E1 & E)]; [exact (Na F _ E)|discriminate].
  - (* XAnd *) intros a IHa b IHb p. cbn [parse]. intros E. apply bind_ok in E. destruct E as (pa & Pa & E). apply bind_ok in E. destruct E as (pb & Pb & E).
    apply bind_ok in E. destruct E as (x & Px & E). apply bind_ok in E. destruct E as (y & Py & E).
    apply prim_bool_inv in Px, Py. destruct Px as [-> Dx], Py as [-> Dy]. specialize (IHa _ Pa). specialize (IHb _ Pb). cbn [good] in *.
    apply rmap_ok in E. destruct E as (r & R & ->). destruct IHa as (Wa & Fa & _ & Va & Ea & Na), IHb as (Wb & Fb & _ & Vb & Eb & Nb).
    assert (Ba : boolt x) by (split; [exact Wa|rewrite Dx; discriminate]). assert (Bb : boolt y) by (split; [exact Wb|rewrite Dy; discriminate]).
    destruct (logic_meets env same And x y r (or_introl eq_refl) Ba Bb R) as (Br & M1 & M2 & M3 & M4 & M5).
    split; [apply Br|]. split; [|split; [discriminate|split; [|split]]].
    + cbn [firm]. intros F. apply andb_prop in F. apply M5; [apply Fa, F|apply Fb, F].
    + intros v. unfold ev. cbn [peval]. intros E. apply bind_ok in E. destruct E as (va & E1 & E).
      destruct (Va va E1) as (z & Dz & N & K). rewrite (truth_number _ _ N) in E. destruct (z =? 0) eqn:Q; cbn [negb] in E.
      * injection E as <-. exists z. split; [apply M1; [exact Dz|cbn; rewrite Q; reflexivity]|]. split; [exact N|]. intros _. apply K. rewrite Dx. discriminate.
      * destruct (Vb v E) as (w & Dw & Nw & Kw). exists w. split; [apply M2 with z; [exact Dz|cbn; rewrite Q; reflexivity|exact Dw]|]. split; [exact Nw|].
        intros _. apply Kw. rewrite Dy. discriminate.
    + intros ex. unfold ev. cbn [peval calm]. intros E C. apply andb_prop in C. destruct C as [C C3]. apply andb_prop in C. destruct C as [C1 C2].
      apply bind_exn in E. destruct E as [E|(va & E1 & E)].
      * apply orb_prop in C3. destruct C3 as [C3|C3]; [destruct (Na C3 _ E)|]. apply M3; auto.
      * destruct (Va va E1) as (z & Dz & N & K). rewrite (truth_number _ _ N) in E. destruct (z =? 0) eqn:Q; cbn [negb] in E; [discriminate|].
        apply M4 with z; [exact Dz|cbn; rewrite Q; reflexivity|auto].
    + cbn [free]. intros F ex. apply andb_prop in F. unfold ev. cbn [peval]. intros E. apply bind_exn in E. destruct E as [E|(va & E1 & E)]; [exact (Na (proj1 F) _ E)|].
      destruct (truth va); [exact (Nb (proj2 F) _ E)|discriminate].
  - (* XOr *) intros a IHa b IHb p. cbn [parse]. intros E. apply bind_ok in E. destruct E as (pa & Pa & E). apply bind_ok in E. destruct E as (pb & Pb & E).
    apply bind_ok in E. destruct E as (x & Px & E). apply bind_ok in E. destruct E as (y & Py & E).
    apply prim_bool_inv in Px, Py. destruct Px as [-> Dx], Py as [-> Dy]. specialize (IHa _ Pa). specialize (IHb _ Pb). cbn [good] in *.
    apply rmap_ok in E. destruct E as (r & R & ->). destruct IHa as (Wa & Fa & _ & Va & Ea & Na), IHb as (Wb & Fb & _ & Vb & Eb & Nb).
    assert (Ba : boolt x) by (split; [exact Wa|rewrite Dx; discriminate]). assert (Bb : boolt y) by (split; [exact Wb|rewrite Dy; discriminate]).
    destruct (logic_meets env same Or x y r (or_intror eq_refl) Ba Bb R) as (Br & M1 & M2 & M3 & M4 & M5).
    split; [apply Br|]. split; [|split; [discriminate|split; [|split]]].
    + cbn [firm]. intros F. apply andb_prop in F. apply M5; [apply Fa, F|apply Fb, F].
    + intros v. unfold ev. cbn [peval]. intros E. apply bind_ok in E. destruct E as (va & E1 & E).
      destruct (Va va E1) as (z & Dz & N & K). rewrite (truth_number _ _ N) in E. destruct (z =? 0) eqn:Q; cbn [negb] in E.
      * destruct (Vb v E) as (w & Dw & Nw & Kw). exists w. split; [apply M2 with z; [exact Dz|exact Q|exact Dw]|]. split; [exact Nw|].
        intros _. apply Kw. rewrite Dy. discriminate.
      * injection E as <-. exists z. split; [apply M1; [exact Dz|exact Q]|]. split; [exact N|]. intros _. apply K. rewrite Dx. discriminate.
    + intros ex. unfold ev. cbn [peval calm]. intros E C. apply andb_prop in C. destruct C as [C C3]. apply andb_prop in C. destruct C as [C1 C2].
      apply bind_exn in E. destruct E as [E|(va & E1 & E)].
      * apply orb_prop in C3. destruct C3 as [C3|C3]; [destruct (Na C3 _ E)|]. apply M3; auto.
      * destruct (Va va E1) as (z & Dz & N & K). rewrite (truth_number _ _ N) in E. destruct (z =? 0) eqn:Q; cbn [negb] in E; [|discriminate].
        apply M4 with z; [exact Dz|exact Q|auto].
    + cbn [free]. intros F ex. apply andb_prop in F. unfold ev. cbn [peval]. intros E. apply bind_exn in E. destruct E as [E|(va & E1 & E)]; [exact (Na (proj1 F) _ E)|].
      destruct (truth va); [discriminate|exact (Nb (proj2 F) _ E)].
  - (* XCmp *) intros a IHa o b IHb t IHt p. cbn [parse]. intros E. apply bind_ok in E. destruct E as (pa & Pa & E). apply bind_ok in E. destruct E as (x & Px & E).
    apply bind_ok in E. destruct E as (pb & Pb & E). apply bind_ok in E. destruct E as (y & Py & E). apply prim_inv in Px, Py. subst pa pb.
    specialize (IHa _ Pa). specialize (IHb _ Pb). cbn [good] in *. apply bind_ok in E. destruct E as (c & C & E). apply rmap_ok in E. destruct E as (r & R & ->).
    destruct IHa as (Wa & Fa & _ & Va & Ea & Na), IHb as (Wb & Fb & _ & Vb & Eb & Nb).
    destruct (cmp_meets env same o x y c Wa Wb C) as (Wc & Dc & M1 & M2 & M3 & M4).
    assert (Bc : boolt c) by (split; [exact Wc|rewrite Dc; discriminate]).
    destruct (IHt c y r R Bc Wb) as (Br & T1 & T2 & T3). cbn [good].
    split; [apply Br|]. split; [|split; [discriminate|split; [|split]]].
    + destruct t; cbn [firm]; [|discriminate]. cbn [parse_tail] in R. injection R as <-. intros F. apply M4. apply orb_prop in F. destruct F; auto.
    + intros v. unfold ev. cbn [peval]. intros E. apply bind_ok in E. destruct E as (va & E1 & E). apply bind_ok in E. destruct E as (vb & E2 & E).
      destruct (Va va E1) as (z & Dz & N & _), (Vb vb E2) as (w & Dw & Nw & _). unfold pcmp in E. rewrite N, Nw in E. cbn [bind] in E.
      specialize (M1 z w Dz Dw). destruct (pcompare o z w).
      * destruct (T2 vb w v M1 Dw Nw E) as (b' & -> & D'). exists (b2z b'). split; [exact D'|]. split; [reflexivity|eauto].
      * injection E as <-. exists 0. split; [apply T1, M1|]. split; [reflexivity|eauto].
    + intros ex. unfold ev. cbn [peval]. intros E C'. destruct t.
      * cbn [calm] in C'. apply andb_prop in C'. destruct C' as [C1 C2]. cbn [parse_tail] in R. injection R as <-.
        apply bind_exn in E. destruct E as [E|(va & E1 & E)]; [apply M2, Ea; assumption|].
        destruct (Va va E1) as (z & Dz & N & _). apply bind_exn in E. destruct E as [E|(vb & E2 & E)]; [apply M3 with z; auto|].
        destruct (Vb vb E2) as (w & Dw & Nw & _). unfold pcmp in E. rewrite N, Nw in E. cbn [bind ptails] in E. destruct (pcompare o z w); discriminate E.
      * exfalso. cbn [calm] in C'. apply andb_prop in C'. destruct C' as [C' C3]. apply andb_prop in C'. destruct C' as [C1 C2].
        apply bind_exn in E. destruct E as [E|(va & E1 & E)]; [exact (Na C1 _ E)|].
        destruct (Va va E1) as (z & Dz & N & _). apply bind_exn in E. destruct E as [E|(vb & E2 & E)]; [exact (Nb C2 _ E)|].
        destruct (Vb vb E2) as (w & Dw & Nw & _). unfold pcmp in E. rewrite N, Nw in E. cbn [bind] in E. destruct (pcompare o z w); [|discriminate E].
        exact (T3 C3 vb w ex Nw E).
    + intros F ex. cbn [free] in F. apply andb_prop in F. destruct F as [F F3]. apply andb_prop in F. destruct F as [F1 F2]. unfold ev. cbn [peval]. intros E.
      apply bind_exn in E. destruct E as [E|(va & E1 & E)]; [exact (Na F1 _ E)|].
      destruct (Va va E1) as (z & Dz & N & _). apply bind_exn in E. destruct E as [E|(vb & E2 & E)]; [exact (Nb F2 _ E)|].
      destruct (Vb vb E2) as (w & Dw & Nw & _). unfold pcmp in E. rewrite N, Nw in E. cbn [bind] in E. destruct (pcompare o z w); [|discriminate E].
      exact (T3 F3 vb w ex Nw E).
  - (* XIf *) intros c IHc a IHa b IHb p. cbn [parse]. intros E. apply bind_ok in E. destruct E as (pc & Pc & E). apply bind_ok in E. destruct E as (pa & Pa & E).
    apply bind_ok in E. destruct E as (pb & Pb & E). apply bind_ok in E. destruct E as (u & Pu & E). apply bind_ok in E. destruct E as (x & Px & E).
    apply bind_ok in E. destruct E as (y & Py & E). apply prim_inv in Pu, Px, Py. subst pc pa pb. specialize (IHc _ Pc). specialize (IHa _ Pa). specialize (IHb _ Pb). cbn [good] in *.
    apply rmap_ok in E. destruct E as (r & R & ->).
    destruct IHc as (Wc & Fc & _ & Vc & Ec & Nc), IHa as (Wa & Fa & _ & Va & Ea & Na), IHb as (Wb & Fb & _ & Vb & Eb & Nb).
    destruct (sel_meets env u x y r Wc Wa Wb R) as (Du & Wr & Dr & M1 & M2 & M3 & M4). cbn [good].
    assert (Kx : dt r <> DInt 64 -> dt x <> DInt 64 /\ dt y <> DInt 64).
    { intros K. split; intros Q; apply K, Dr; auto. }
    split; [exact Wr|]. split; [|split; [discriminate|split; [|split]]].
    + cbn [firm]. intros F. apply andb_prop in F. apply M4; [apply Fa, F|apply Fb, F].
    + intros v. unfold ev. cbn [peval]. intros E. apply bind_ok in E. destruct E as (vc & E1 & E). destruct (Vc vc E1) as (z & Dz & N & _).
      rewrite (truth_number _ _ N) in E. destruct (z =? 0) eqn:Q; cbn [negb] in E.
      * destruct (Vb v E) as (w & Dw & Nw & Kw). exists w. split; [apply M1 with z; [exact Dz|rewrite Q; exact Dw]|]. split; [exact Nw|]. intros K. apply Kw, Kx, K.
      * destruct (Va v E) as (w & Dw & Nw & Kw). exists w. split; [apply M1 with z; [exact Dz|rewrite Q; exact Dw]|]. split; [exact Nw|]. intros K. apply Kw, Kx, K.
    + intros ex. unfold ev. cbn [peval calm]. intros E C. apply andb_prop in C. destruct C as [C C3]. apply andb_prop in C. destruct C as [C1 C2].
      apply bind_exn in E. destruct E as [E|(vc & E1 & E)]; [apply M2, Ec; assumption|]. destruct (Vc vc E1) as (z & Dz & N & _).
      rewrite (truth_number _ _ N) in E. apply M3 with z; [exact Dz|]. destruct (z =? 0); cbn [negb] in E; auto.
    + cbn [free]. intros F ex. apply andb_prop in F. destruct F as [F F3]. apply andb_prop in F. destruct F as [F1 F2]. unfold ev. cbn [peval]. intros E.
      apply bind_exn in E. destruct E as [E|(vc & E1 & E)]; [exact (Nc F1 _ E)|]. destruct (truth vc); [exact (Na F2 _ E)|exact (Nb F3 _ E)].
  - (* TEnd *) intros acc l x [= <-] B W. split; [exact B|]. split; [auto|]. split.
    + intros w zl v D _ _ [= <-]. exists true. auto.
    + discriminate.
  - (* TCons *) intros o b IHb t IHt acc l x. cbn [parse_tail]. intros E B W. apply bind_ok in E. destruct E as (pb & Pb & E). apply bind_ok in E. destruct E as (y & Py & E).
    apply prim_inv in Py. subst pb. specialize (IHb _ Pb). cbn [good] in IHb. destruct IHb as (Wb & _ & _ & Vb & Eb & Nb).
    apply bind_ok in E. destruct E as (c & C & E). apply bind_ok in E. destruct E as (acc' & A & E).
    destruct (cmp_meets env same o l y c W Wb C) as (Wc & Dc & M1 & _). assert (Bc : boolt c) by (split; [exact Wc|rewrite Dc; discriminate]).
    destruct (logic_meets env same And acc c acc' (or_introl eq_refl) B Bc A) as (Ba & L1 & L2 & _).
    destruct (IHt acc' y x E Ba Wb) as (Bx & T1 & T2 & T3). split; [exact Bx|]. split; [|split].
    + intros D. apply T1, L1; [exact D|reflexivity].
    + intros w zl v D Dl Nw. cbn [ptails]. intros Ev. apply bind_ok in Ev. destruct Ev as (vb & E2 & Ev). destruct (Vb vb E2) as (zb & Db & Nzb & _).
      unfold pcmp in Ev. rewrite Nw, Nzb in Ev. cbn [bind] in Ev. specialize (M1 zl zb Dl Db).
      assert (D' : den env acc' (b2z (pcompare o zl zb))) by (apply L2 with 1; [exact D|reflexivity|exact M1]).
      destruct (pcompare o zl zb).
      * eapply T2; eassumption.
      * injection Ev as <-. exists false. split; [reflexivity|]. apply T1, D'.
    + cbn [free_tail]. intros F w zl ex Nw. apply andb_prop in F. destruct F as [F1 F2]. cbn [ptails]. intros Ev.
      apply bind_exn in Ev. destruct Ev as [Ev|(vb & E2 & Ev)]; [exact (Nb F1 _ Ev)|]. destruct (Vb vb E2) as (zb & Db & Nzb & _).
      unfold pcmp in Ev. rewrite Nw, Nzb in Ev. cbn [bind] in Ev. destruct (pcompare o zl zb); [|discriminate Ev]. exact (T3 F2 vb zb ex Nzb Ev).
Qed.

(** the test of an [if] *)
Lemma test_good e x : parse_test same glob scopes e = Ok x ->
  dt x = DBool /\ wf x /\ pint x = None /\
  (forall v, ev e = Ok v -> den env x (b2z (truth v))) /\
  (forall ex, ev e = Exn ex -> calm loc e = true -> eval env x = Exn ex).
Proof.
  assert (LEAF : forall e x, (let! p := parse same glob scopes e in let! a := prim p in Ok (ECast DBool a)) = Ok x ->
    dt x = DBool /\ wf x /\ pint x = None /\
    (forall v, ev e = Ok v -> den env x (b2z (truth v))) /\
    (forall ex, ev e = Exn ex -> calm loc e = true -> eval env x = Exn ex)).
  { clear e x. intros e x E. apply bind_ok in E. destruct E as (p & P & E). apply bind_ok in E. destruct E as (a & A & [= <-]). apply prim_inv in A. subst p.
    destruct (proj1 parse_good _ _ P) as (Wa & Fa & _ & Va & Ea & Na).
    split; [reflexivity|]. split; [split; [right; left; reflexivity|apply lwf_cast]|]. split; [reflexivity|]. split.
    - intros v E. destruct (Va v E) as (z & (t & D & T) & N & K). rewrite (truth_number _ _ N). 
      exists CBool. split; [|right; left; repeat split; apply b2z_bit]. cbn [eval]. rewrite D. cbn [bind].
      destruct (dtype_eqb (dt a) DBool) eqn:Q.
      + apply dtype_eqb_eq in Q. assert (Bz : bit z) by (eapply tyok_bit; [exact T|rewrite Q; discriminate]).
        destruct T as [(D' & _)|[(_ & -> & _)|(D' & _)]]; try (rewrite Q in D'; discriminate D'). destruct Bz as [-> | ->]; reflexivity.
      + cbn [cast_val DBool ctype Z.eqb Pos.eqb conv]. destruct (z =? 0); reflexivity.
    - intros ex E C. apply eval_cast_exn, Ea; assumption. }
  revert x. induction e; try (intros r; cbn [parse_test]; apply LEAF).
  - (* XNot *) intros x. cbn [parse_test]. intros E. apply bind_ok in E. destruct E as (a & A & E). destruct (IHe a A) as (Da & Wa & Pa & Va & Ea).
    destruct (not_meets env a x Da Wa E) as (W & Dr & M1 & M2 & M3).
    split; [exact Dr|]. split; [exact W|]. split; [apply M3, Pa|]. split.
    + intros v. unfold ev. cbn [peval]. intros Ev. apply bind_ok in Ev. destruct Ev as (va & E1 & [= <-]). specialize (M1 _ (Va va E1)).
      cbn [truth]. destruct (truth va); exact M1.
    + intros ex. unfold ev. cbn [peval calm]. intros Ev C. apply bind_exn in Ev. destruct Ev as [Ev|(va & E1 & Ev)]; [|discriminate]. apply M2, Ea; assumption.
  - (* XAnd *) intros x. cbn [parse_test]. intros E. apply bind_ok in E. destruct E as (a & A & E). apply bind_ok in E. destruct E as (b & B & E).
    destruct (IHe1 a A) as (Da & Wa & Pa & Va & Ea), (IHe2 b B) as (Db & Wb & Pb & Vb & Eb).
    assert (Ba : boolt a) by (split; [exact Wa|rewrite Da; discriminate]). assert (Bb : boolt b) by (split; [exact Wb|rewrite Db; discriminate]).
    destruct (logic_meets env same And a b x (or_introl eq_refl) Ba Bb E) as (Bx & M1 & M2 & M3 & M4 & M5).
    assert (Px : pint x = None) by auto.
    assert (Dx : dt x = DBool).
    { destruct (dtype_eqb (dt x) DBool) eqn:Q; [apply dtype_eqb_eq, Q|]. unfold build, fold, fold_and in E. rewrite (boolt_boolish _ Ba), (boolt_boolish _ Bb), Pa, Pb in E. cbn [andb bind or_node] in E. injection E as <-. discriminate Q. }
    split; [exact Dx|]. split; [apply Bx|]. split; [exact Px|]. split.
    + intros v. unfold ev. cbn [peval]. intros Ev. apply bind_ok in Ev. destruct Ev as (va & E1 & Ev). specialize (Va va E1). destruct (truth va) eqn:T.
      * apply M2 with 1; [exact Va|reflexivity|]. apply Vb, Ev.
      * injection Ev as <-. rewrite T. apply M1; [exact Va|reflexivity].
    + intros ex. unfold ev. cbn [peval calm]. intros Ev C. apply andb_prop in C. destruct C as [C _]. apply andb_prop in C. destruct C as [C1 C2].
      apply bind_exn in Ev. destruct Ev as [Ev|(va & E1 & Ev)]; [apply M3; auto|]. specialize (Va va E1). destruct (truth va) eqn:T; [|discriminate].
      apply M4 with 1; [exact Va|reflexivity|auto].
  - (* XOr *) intros x. cbn [parse_test]. intros E. apply bind_ok in E. destruct E as (a & A & E). apply bind_ok in E. destruct E as (b & B & E).
    destruct (IHe1 a A) as (Da & Wa & Pa & Va & Ea), (IHe2 b B) as (Db & Wb & Pb & Vb & Eb).
    assert (Ba : boolt a) by (split; [exact Wa|rewrite Da; discriminate]). assert (Bb : boolt b) by (split; [exact Wb|rewrite Db; discriminate]).
    destruct (logic_meets env same Or a b x (or_intror eq_refl) Ba Bb E) as (Bx & M1 & M2 & M3 & M4 & M5).
    assert (Px : pint x = None) by auto.
    assert (Dx : dt x = DBool).
    { destruct (dtype_eqb (dt x) DBool) eqn:Q; [apply dtype_eqb_eq, Q|]. unfold build, fold, fold_or in E. rewrite (boolt_boolish _ Ba), (boolt_boolish _ Bb), Pa, Pb in E. cbn [andb bind or_node] in E. injection E as <-. discriminate Q. }
    split; [exact Dx|]. split; [apply Bx|]. split; [exact Px|]. split.
    + intros v. unfold ev. cbn [peval]. intros Ev. apply bind_ok in Ev. destruct Ev as (va & E1 & Ev). specialize (Va va E1). destruct (truth va) eqn:T.
      * injection Ev as <-. rewrite T. apply M1; [exact Va|reflexivity].
      * apply M2 with 0; [exact Va|reflexivity|]. apply Vb, Ev.
    + intros ex. unfold ev. cbn [peval calm]. intros Ev C. apply andb_prop in C. destruct C as [C _]. apply andb_prop in C. destruct C as [C1 C2].
      apply bind_exn in Ev. destruct Ev as [Ev|(va & E1 & Ev)]; [apply M3; auto|]. specialize (Va va E1). destruct (truth va) eqn:T; [discriminate|].
      apply M4 with 0; [exact Va|reflexivity|auto].
Qed.
End ParseOk.
(** ** Unfolding the executions *)
Section Unfold.
Variables (lim : bool) (n : nat) (glob : nat -> option pval) (loc : nat -> bool).
Notation px := (pexec lim n glob loc).
Notation pxs := (pexec_s lim n glob loc).
Lemma px_if cur c a b E : pxs cur (SIf c a b) E = withv E (pvalue lim glob loc E c) (fun v => if truth v then px cur a E else px cur b E).
Proof. reflexivity. Qed.
Lemma px_while cur c b els E : pxs cur (SWhile c b els) E = pwhile (fun E => pvalue lim glob loc E c) (px cur b) (px cur els) n E.
Proof. reflexivity. Qed.
Lemma px_for cur x r b els E : pxs cur (SFor x r b els) E =
  withv E (let! args := prange_args lim glob loc E r in prange_vals lim args) (fun vals => pfor x (px cur b) (px cur els) n vals E).
Proof. reflexivity. Qed.
Lemma px_try cur b h hd els fin E : pxs cur (STry b h hd els fin) E =
  let r := match px cur b E with
           | ORaise x E' => if catches h x then px (Some x) hd E' else ORaise x E'
           | ONext E' => px cur els E'
           | o => o
           end in
  match fin with BNil => r | _ => pfinally (fun cur => px cur fin) cur r end.
Proof. reflexivity. Qed.
Lemma px_cons cur s b E : px cur (BCons s b) E = match pxs cur s E with ONext E' => px cur b E' | o => o end.
Proof. reflexivity. Qed.
End Unfold.

(** ** The monitor *)
Section Silent.
Variables (n : nat) (glob : nat -> option pval) (loc : nat -> bool).

Definition sil {A} (r r' : res A) : Prop := r = UB \/ r = r'.
Lemma sil_refl {A} (r : res A) : sil r r. Proof. right; reflexivity. Qed.
Lemma sil_bind {A B} (r r' : res A) (k k' : A -> res B) : sil r r' -> (forall a, sil (k a) (k' a)) -> sil (bind r k) (bind r' k').
Proof. intros [->|<-] K; [left; reflexivity|]. destruct r; cbn; auto; right; reflexivity. Qed.
Lemma sil_within z : sil (within true z) (within false z).
Proof. unfold within. cbn [andb]. destruct (negb (int64b z)); [left|right]; reflexivity. Qed.
Lemma sil_parith o v w : sil (parith true o v w) (parith false o v w).
Proof.
  unfold parith. destruct v, w; cbn [number]; try apply sil_refl;
   destruct o; try apply sil_within; match goal with |- context [if ?c then _ else _] => destruct c end; first [apply sil_within|apply sil_refl].
Qed.
Lemma sil_eval lk : (forall e, sil (peval true lk e) (peval false lk e)) /\ (forall t v, sil (ptails true lk v t) (ptails false lk v t)).
Proof.
  apply pexp_ind2; intros; cbn [peval ptails]; try apply sil_refl.
  - apply sil_within.
  - apply sil_bind; [assumption|]. intros. apply sil_bind; [assumption|]. intros. apply sil_parith.
  - apply sil_bind; [assumption|]. intros v. destruct (number v); [apply sil_within|apply sil_refl].
  - apply sil_bind; [assumption|]. intros v. apply sil_refl.
  - apply sil_bind; [assumption|]. intros v. destruct (truth v); [assumption|apply sil_refl].
  - apply sil_bind; [assumption|]. intros v. destruct (truth v); [apply sil_refl|assumption].
  - apply sil_bind; [assumption|]. intros v. apply sil_bind; [assumption|]. intros w. apply sil_bind; [apply sil_refl|].
    intros b'. destruct b'; [auto|apply sil_refl].
  - apply sil_bind; [assumption|]. intros v. destruct (truth v); assumption.
  - apply sil_bind; [assumption|]. intros w. apply sil_bind; [apply sil_refl|].
    intros b'. destruct b'; [auto|apply sil_refl].
Qed.
Lemma sil_value E e : sil (pvalue true glob loc E e) (pvalue false glob loc E e).
Proof.
  unfold pvalue. destruct (proj1 (sil_eval (look glob loc E)) e) as [->|<-]; [left; reflexivity|].
  destruct (peval true (look glob loc E) e); try apply sil_refl. cbn [andb]. destruct (negb (calm loc e)); [left|right]; reflexivity.
Qed.
Lemma sil_range E r : sil (let! a := prange_args true glob loc E r in prange_vals true a) (let! a := prange_args false glob loc E r in prange_vals false a).
Proof.
  assert (IN : forall e, sil (let! v := pvalue true glob loc E e in pint_of v) (let! v := pvalue false glob loc E e in pint_of v)).
  { intros e. apply sil_bind; [apply sil_value|]. intros. apply sil_refl. }
  apply sil_bind.
  - destruct r; cbn [prange_args]; repeat (apply sil_bind; [apply IN|intros]); apply sil_refl.
  - intros [[a b] s]. unfold prange_vals. destruct (s =? 0); [left; reflexivity|]. cbn [andb]. destruct (negb _); [left|right]; reflexivity.
Qed.

Definition osil {St V} (o o' : out St V) : Prop := o = OScope \/ o = o'.
Lemma osil_refl {St V} (o : out St V) : osil o o. Proof. right; reflexivity. Qed.
Lemma osil_with {A} E (r r' : res A) (k k' : A -> out env pval) : sil r r' -> (forall a, osil (k a) (k' a)) -> osil (withv E r k) (withv E r' k').
Proof. intros [->|<-] K; [left; reflexivity|]. destruct r; cbn; auto; right; reflexivity. Qed.

Lemma sil_while t t' b b' e e' : (forall E, sil (t E) (t' E)) -> (forall E, osil (b E) (b' E)) -> (forall E, osil (e E) (e' E)) ->
  forall k E, osil (pwhile t b e k E) (pwhile t' b' e' k E).
Proof.
  intros T B X. induction k as [|k IH]; intros E; cbn [pwhile].
  + apply osil_with; [apply T|]. intros v. destruct (truth v); [apply osil_refl|auto].
  + apply osil_with; [apply T|]. intros v. destruct (truth v); [|auto].
    destruct (B E) as [->| ->]; [left; reflexivity|]. destruct (b' E); try apply osil_refl; apply IH.
Qed.
Lemma sil_for x b b' e e' : (forall E, osil (b E) (b' E)) -> (forall E, osil (e E) (e' E)) ->
  forall vals k E, osil (pfor x b e k vals E) (pfor x b' e' k vals E).
Proof.
  intros B X. induction vals as [|v vals IH]; intros k E; [destruct k; cbn [pfor]; auto|]. destruct k as [|k]; cbn [pfor]; [apply osil_refl|].
  destruct (B (upd E x (VInt v))) as [->| ->]; [left; reflexivity|]. destruct (b' (upd E x (VInt v))); try apply osil_refl; apply IH.
Qed.
Lemma sil_exec : (forall s cur E, osil (pexec_s true n glob loc cur s E) (pexec_s false n glob loc cur s E)) /\
  (forall b cur E, osil (pexec true n glob loc cur b E) (pexec false n glob loc cur b E)).
Proof.
  apply pstmt_ind2; intros; rewrite ?px_if, ?px_while, ?px_for, ?px_try, ?px_cons; try apply osil_refl; cbv zeta.
  - cbn [pexec_s]. apply osil_with; [apply sil_value|]. intros; apply osil_refl.
  - cbn [pexec_s]. apply osil_with; [apply sil_value|]. intros; apply osil_refl.
  - apply osil_with; [apply sil_value|]. intros v; destruct (truth v); auto.
  - apply sil_while; auto. intros; apply sil_value.
  - apply osil_with; [apply sil_range|]. intros vals. apply sil_for; auto.
  - cbn [pexec_s]. apply osil_with; [apply sil_value|]. intros; apply osil_refl.
  - assert (OFIN : forall r r', osil r r' -> osil
      (match fin with BNil => r | BCons _ _ => pfinally (fun cur => pexec true n glob loc cur fin) cur r end)
      (match fin with BNil => r' | BCons _ _ => pfinally (fun cur => pexec false n glob loc cur fin) cur r' end)).
    { intros r r' [->|<-]; [destruct fin; left; reflexivity|]. destruct fin as [|fs fb]; [apply osil_refl|].
      destruct r as [E'|E'|E'|v E'|x E'| |]; unfold pfinally; try apply osil_refl; try apply H2.
      - destruct (H2 cur E') as [->| ->]; [left; reflexivity|apply osil_refl].
      - destruct (H2 cur E') as [->| ->]; [left; reflexivity|apply osil_refl].
      - destruct (H2 cur E') as [->| ->]; [left; reflexivity|apply osil_refl].
      - destruct (H2 (Some x) E') as [->| ->]; [left; reflexivity|apply osil_refl]. }
    apply OFIN. destruct (H cur E) as [->| ->]; [left; reflexivity|].
    destruct (pexec false n glob loc cur body E); try apply osil_refl; auto. destruct (catches h x); [auto|apply osil_refl].
  - destruct (H cur E) as [->| ->]; [left; reflexivity|]. destruct (pexec_s false n glob loc cur s E); try apply osil_refl. auto.
Qed.
End Silent.

(** Where the monitored execution has an outcome, it is the outcome without the monitor. *)
Theorem monitor_silent n glob f args : py_run true n glob f args <> UB -> py_run false n glob f args = py_run true n glob f args.
Proof.
  unfold py_run. destruct (proj2 (sil_exec n glob (local f)) (body f) None (bind_args (params f) args)) as [->| ->]; [congruence|reflexivity].
Qed.

(** ** Python executions *)
Section Py.
Variables (n : nat) (glob : nat -> option pval) (loc : nat -> bool).

(** a block leaves the other names alone *)
Definition pframe (l : list nat) (E : env) (o : out env pval) : Prop :=
  match o with
  | ONext E' | OBreak E' | OContinue E' | OReturn _ E' | ORaise _ E' =>
      forall x, memb x l = false -> E' x = E x
  | _ => True
  end.
Lemma memb_app x l1 l2 : memb x (l1 ++ l2) = memb x l1 || memb x l2.
Proof. apply existsb_app. Qed.
Lemma pframe_mono l l' E o : (forall x, memb x l' = false -> memb x l = false) -> pframe l E o -> pframe l' E o.
Proof. intros H. destruct o; cbn; auto. Qed.
Lemma pframe_refl l E : forall x : nat, memb x l = false -> E x = (E x : option pval). Proof. reflexivity. Qed.
Lemma pframe_trans l E E' o : (forall x, memb x l = false -> E' x = E x) -> pframe l E' o -> pframe l E o.
Proof. intros H K. destruct o; cbn in *; auto; intros y M; rewrite K, H; auto. Qed.
Lemma upd_other E x v y : Nat.eqb y x = false -> upd E x v y = E y.
Proof. unfold upd. intros ->. reflexivity. Qed.
Lemma pframe_with {A} l E (r : res A) k : (forall a, pframe l E (k a)) -> pframe l E (withv E r k).
Proof. intros K. destruct r; cbn; auto. Qed.

Lemma frame_while l t b e : (forall E, pframe l E (b E)) -> (forall E, pframe l E (e E)) -> forall k E, pframe l E (pwhile t b e k E).
Proof.
  intros B X. induction k as [|k IH]; intros E; cbn [pwhile]; apply pframe_with; intros v; destruct (truth v); auto; [exact Logic.I|].
  assert (F := B E). destruct (b E); try exact F; (eapply pframe_trans; [exact F|apply IH]).
Qed.
Lemma frame_for l x b e : memb x l = true -> (forall E, pframe l E (b E)) -> (forall E, pframe l E (e E)) -> forall vals k E, pframe l E (pfor x b e k vals E).
Proof.
  intros M B X. induction vals as [|v vals IH]; intros k E; [destruct k; apply X|]. destruct k as [|k]; cbn [pfor]; [exact Logic.I|].
  assert (F := B (upd E x (VInt v))). apply (pframe_trans _ E) in F.
  - destruct (b (upd E x (VInt v))); try exact F; (eapply pframe_trans; [exact F|apply IH]).
  - intros y Y. apply upd_other. destruct (Nat.eqb y x) eqn:Q; [|reflexivity]. apply Nat.eqb_eq in Q. congruence.
Qed.
Lemma exec_frame lim : (forall s cur E, pframe (assigned_s s) E (pexec_s lim n glob loc cur s E)) /\
  (forall b cur E, pframe (assigned b) E (pexec lim n glob loc cur b E)).
Proof.
  assert (ML : forall l1 l2 x, memb x (l1 ++ l2) = false -> memb x l1 = false) by (intros l1 l2 x; rewrite memb_app; intros M; apply orb_false_elim in M; apply M).
  assert (MR : forall l1 l2 x, memb x (l1 ++ l2) = false -> memb x l2 = false) by (intros l1 l2 x; rewrite memb_app; intros M; apply orb_false_elim in M; apply M).
  apply pstmt_ind2; intros; rewrite ?px_if, ?px_while, ?px_for, ?px_try, ?px_cons; cbn [assigned_s assigned]; try (cbn; auto; fail); cbv zeta.
  - cbn [pexec_s]. apply pframe_with. intros v. cbn. intros y M. apply orb_false_elim in M. apply upd_other, M.
  - cbn [pexec_s]. apply pframe_with. intros v. cbn. intros y M. apply orb_false_elim in M. apply upd_other, M.
  - apply pframe_with. intros v. destruct (truth v); [eapply pframe_mono; [|apply H]|eapply pframe_mono; [|apply H0]]; eauto.
  - apply frame_while; intros; (eapply pframe_mono; [|eauto]; eauto).
  - apply pframe_with. intros vals. apply frame_for; [cbn; rewrite Nat.eqb_refl; reflexivity| |]; intros; (eapply pframe_mono; [|eauto]);
     intros y M; apply (MR [x]) in M; eauto.
  - cbn [pexec_s]. apply pframe_with. intros v. cbn. auto.
  - destruct x; cbn; auto.
  - set (l := assigned body ++ assigned handler ++ assigned els ++ assigned fin).
    assert (M1 : forall y, memb y l = false -> memb y (assigned body) = false /\ memb y (assigned handler) = false /\ memb y (assigned els) = false /\ memb y (assigned fin) = false).
    { intros y. unfold l. rewrite !memb_app. intros M. repeat (apply orb_false_elim in M; destruct M as [? M]). auto. }
    assert (Ff : forall c E, pframe l E (pexec lim n glob loc c fin E)) by (intros; eapply pframe_mono; [|apply H2]; intros y M; apply M1, M).
    match goal with |- pframe _ _ (match fin with BNil => ?r | _ => _ end) => assert (Fr : pframe l E r) end.
    { assert (F := H cur E). apply (pframe_mono _ l) in F; [|intros y M; apply M1, M].
      destruct (pexec lim n glob loc cur body E); try exact F.
      - eapply pframe_trans; [exact F|]. eapply pframe_mono; [|apply H1]. intros y M; apply M1, M.
      - destruct (catches h x); [|exact F]. eapply pframe_trans; [exact F|]. eapply pframe_mono; [|apply H0]. intros y M; apply M1, M. }
    match goal with |- pframe _ _ (match fin with BNil => ?r | _ => _ end) => destruct r as [E'|E'|E'|v E'|x E'| |] end;
     (destruct fin as [|fs fb]; [exact Fr|]); try exact Logic.I; unfold pfinally.
    + eapply pframe_trans; [exact Fr|apply Ff].
    + assert (G := Ff cur E'). apply (pframe_trans _ E) in G; [|exact Fr]. destruct (pexec lim n glob loc cur (BCons fs fb) E'); exact G.
    + assert (G := Ff cur E'). apply (pframe_trans _ E) in G; [|exact Fr]. destruct (pexec lim n glob loc cur (BCons fs fb) E'); exact G.
    + assert (G := Ff cur E'). apply (pframe_trans _ E) in G; [|exact Fr]. destruct (pexec lim n glob loc cur (BCons fs fb) E'); exact G.
    + assert (G := Ff (Some x) E'). apply (pframe_trans _ E) in G; [|exact Fr]. destruct (pexec lim n glob loc (Some x) (BCons fs fb) E'); exact G.
  - assert (F := H cur E). apply (pframe_mono _ (assigned_s s ++ assigned b)) in F; [|intros y; rewrite memb_app; intros M; apply orb_false_elim in M; apply M].
    destruct (pexec_s lim n glob loc cur s E); try exact F. eapply pframe_trans; [exact F|]. eapply pframe_mono; [|apply H0].
    intros y; rewrite memb_app; intros M; apply orb_false_elim in M; apply M.
Qed.

(** expressions depend on their names only, and do not run out of fuel *)
Lemma eval_names lim lk lk' : (forall e, (forall x, memb x (names e) = true -> lk x = lk' x) -> peval lim lk e = peval lim lk' e) /\
  (forall t, (forall x, memb x (names_tail t) = true -> lk x = lk' x) -> forall v, ptails lim lk v t = ptails lim lk' v t).
Proof.
  apply pexp_ind2; intros; cbn [peval ptails names names_tail] in *; try reflexivity.
  - apply H. cbn. rewrite Nat.eqb_refl. reflexivity.
  - rewrite H, H0; [reflexivity| |]; intros x M; apply H1; rewrite memb_app, M; auto using orb_true_r.
  - rewrite H by assumption. reflexivity.
  - rewrite H by assumption. reflexivity.
  - rewrite H, H0; [reflexivity| |]; intros x M; apply H1; rewrite memb_app, M; auto using orb_true_r.
  - rewrite H, H0; [reflexivity| |]; intros x M; apply H1; rewrite memb_app, M; auto using orb_true_r.
  - rewrite H, H0 by (intros x M; apply H2; rewrite !memb_app, M; auto using orb_true_r).
    destruct (peval lim lk' a) as [v| | |]; cbn [bind]; try reflexivity.
    destruct (peval lim lk' b) as [w| | |]; cbn [bind]; try reflexivity. destruct (pcmp o v w) as [[|]| | |]; cbn [bind]; try reflexivity.
    apply H1. intros x M; apply H2; rewrite !memb_app, M; rewrite !orb_true_r; reflexivity.
  - rewrite H, H0, H1; [reflexivity| | |]; intros x M; apply H2; rewrite !memb_app, M; rewrite ?orb_true_r; auto using orb_true_r.
  - rewrite H by (intros x M; apply H1; rewrite !memb_app, M; auto using orb_true_r).
    destruct (peval lim lk' b) as [w| | |]; cbn [bind]; try reflexivity. destruct (pcmp o v w) as [[|]| | |]; cbn [bind]; try reflexivity.
    apply H0. intros x M; apply H1; rewrite !memb_app, M; auto using orb_true_r.
Qed.
Lemma bind_nofuel {A B} (r : res A) (k : A -> res B) : r <> OutOfFuel -> (forall a, k a <> OutOfFuel) -> bind r k <> OutOfFuel.
Proof. destruct r; cbn; auto; congruence. Qed.
Lemma within_nofuel lim z : within lim z <> OutOfFuel.
Proof. unfold within. destruct (lim && _); discriminate. Qed.
Lemma eval_nofuel lim E : (forall e, peval lim (look glob loc E) e <> OutOfFuel) /\ (forall t v, ptails lim (look glob loc E) v t <> OutOfFuel).
Proof.
  assert (PC : forall o v w, pcmp o v w <> OutOfFuel) by (intros o v w; unfold pcmp; destruct (number v), (number w); discriminate).
  apply pexp_ind2; intros; cbn [peval ptails]; try discriminate; try (apply bind_nofuel; [assumption|]; intros).
  - apply within_nofuel.
  - unfold look. destruct (if loc x then E x else glob x); discriminate.
  - apply bind_nofuel; [assumption|]. intros w. unfold parith. destruct a0, w; cbn [number]; try discriminate;
     destruct o; try apply within_nofuel; try discriminate; match goal with |- context [if ?c then _ else _] => destruct c end; first [apply within_nofuel|discriminate].
  - destruct (number a0); [apply within_nofuel|discriminate].
  - discriminate.
  - destruct (truth a0); [assumption|discriminate].
  - destruct (truth a0); [discriminate|assumption].
  - apply bind_nofuel; [assumption|]. intros w. apply bind_nofuel; [apply PC|]. intros []; [auto|discriminate].
  - destruct (truth a0); assumption.
  - apply bind_nofuel; [apply PC|]. intros []; [auto|discriminate].
Qed.
Lemma value_nofuel lim E e : pvalue lim glob loc E e <> OutOfFuel.
Proof.
  unfold pvalue. pose proof (proj1 (eval_nofuel lim E) e). destruct (peval lim (look glob loc E) e); try congruence.
  destruct (lim && _); discriminate.
Qed.

(** a function that passes the control flow check does not fall off its end *)
Lemma must_return_ok lim : (forall s, must_return_s s = true -> forall cur E E', pexec_s lim n glob loc cur s E <> ONext E') /\
  (forall b, must_return b = true -> forall cur E E', pexec lim n glob loc cur b E <> ONext E').
Proof.
  apply pstmt_ind2; intros; rewrite ?px_if, ?px_cons; cbn [must_return_s must_return] in *; try discriminate.
  - apply andb_prop in H1. destruct (pvalue lim glob loc E c); cbn; try discriminate. destruct (truth a0); [apply H, H1|apply H0, H1].
  - cbn [pexec_s]. destruct (pvalue lim glob loc E e); discriminate.
  - destruct (must_return_s s) eqn:Q.
    + specialize (H eq_refl cur E). destruct (pexec_s lim n glob loc cur s E); try discriminate. intros. destruct (H s0 eq_refl).
    + cbn in H1. destruct (pexec_s lim n glob loc cur s E); try discriminate. apply H0, H1.
Qed.
End Py.
