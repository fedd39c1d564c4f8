(** Theorems about the comparison of dynamic values (C69). *)
From Coq Require Import Floats.SpecFloat.
From Verif Require Import Base KeyModel KeyProofs FloatAux PdqModel PdqSpec PdqProps VcModel VcSpec VcProofs.
Local Open Scope Z_scope.

Definition one : double := S754_finite false (2 ^ 52) (-52).
Definition half_ : double := S754_finite false (2 ^ 52) (-53).
Definition inf : double := S754_infinity false.

(** ** C69: > and <= of ints, floats, bytes, strs and lists of them, nested *)
Theorem C69_greater_partial a b : tame a = true -> tame b = true -> exact_with a b = true ->
  answers (gt a b) (py_cmp Gt_ a b) /\ answers (le a b) (py_cmp Le_ a b).
Proof.
  intros Ta Tb X. destruct (gt_c3 a b Ta Tb X) as (E & F).
  split; apply answers_c3; auto using tame_none, tame_nan.
Qed.
Print Assumptions C69_greater_partial.
Example C69_greater_example :
  let a := VList [VInt 1; VList [VFloat half_; VStr [0x4e2d]]] in
  let b := VList [VInt 1; VList [VInt 0; VStr [97; 98]]; VInt 7] in
  tame a = true /\ tame b = true /\ exact_with a b = true /\ gt a b = Ok true /\ le a b = Ok false /\
  gt b a = Ok false /\ gt a (VList [VInt 1; VInt 1]) = Exn TypeError.
Proof. vm_compute. repeat split. Qed.

(** >= and <, also of tuples of such values; not of two numbers one of which is a float *)
Theorem C69_less_partial a b : plain a = true -> plain b = true -> exact_with a b = true ->
  answers (ge a b) (py_cmp Ge_ a b) /\ answers (lt a b) (py_cmp Lt_ a b).
Proof.
  intros Pa Pb X.
  assert (W : exists f, whole f a = true /\ whole f b = true).
  { unfold exact_with in X. apply orb_true_iff in X.
    assert (L : forall (f : bool) v, plain v = true -> (if f then floatless v else small_ints v) = true -> whole f v = true).
    { intros f v P F. destruct v as [|n|x|s|s|l|l]; try exact P; try (unfold whole, good; rewrite F, andb_true_r; exact P).
      cbn [plain whole] in *. rewrite forallb_forall in *. intros x Hx. unfold good. rewrite (P x Hx).
      destruct f; cbn [floatless small_ints] in F; rewrite forallb_forall in F; exact (F x Hx). }
    destruct X as [X|X]; apply andb_true_iff in X; destruct X as (A & B); [exists true|exists false]; split; apply L; assumption. }
  destruct W as (f & Wa & Wb). destruct (ge_c3 f a b Wa Wb) as (E & F).
  assert (N : forall v, plain v = true -> no_none v = true /\ no_nan v = true).
  { intros v P. destruct v as [|n|x|s|s|l|l]; try discriminate P; try (split; [apply tame_none|apply tame_nan]; exact P).
    cbn [plain no_none no_nan] in *. rewrite !forallb_forall in *. split; intros x Hx; [apply tame_none|apply tame_nan]; auto. }
  destruct (N a Pa), (N b Pb). split; apply answers_c3; auto.
Qed.
Print Assumptions C69_less_partial.
Example C69_less_example :
  let a := VTuple [VFloat one; VList [VBytes [1]]; VInt 3] in
  let b := VTuple [VInt 1; VList [VBytes [1; 0]]] in
  plain a = true /\ plain b = true /\ exact_with a b = true /\ lt a b = Ok true /\ ge a b = Ok false /\ ge a a = Ok true.
Proof. vm_compute. repeat split. Qed.

(** Two numbers, a float among them: a >= that holds is never denied, and a < that is affirmed
    holds. *)
Theorem C69_float_less_partial a b : finite_number a = true -> finite_number b = true -> is_float a || is_float b = true ->
  small_ints a = true -> small_ints b = true ->
  (py_cmp Ge_ a b = Some true -> ge a b = Ok true) /\ (lt a b = Ok true -> py_cmp Lt_ a b = Some true).
Proof.
  intros Fa Fb I Sa Sb.
  assert (N : forall v, finite_number v = true -> exists x, number v = Some x /\ numeral x = true /\ tame v = true /\ (small_ints v = true -> finite (dbl v) = true)).
  { intros v F. destruct v as [|n|[]| | | |]; try discriminate F; eexists; (split; [reflexivity|split; [reflexivity|split; [|]]]);
      try exact F; try reflexivity. intros H. apply of_int_finite. cbn in H. lia. }
  destruct (N a Fa) as (x & Nx & Lx & Tx & Dx), (N b Fb) as (y & Ny & Ly & Ty & _).
  destruct (float_ge a b x y Nx Ny Tx Ty Sa Sb I) as (E & C).
  assert (P : forall o, py_cmp o a b = option_map (holds o) (num_cmp x y)).
  { intros o. rewrite py_cmp_c3; auto using tame_none, tame_nan. f_equal.
    destruct a; try discriminate Fa; destruct b; try discriminate Fb; cbn [c3]; rewrite Nx, Ny; reflexivity. }
  assert (G : num_cmp x y = Some Gt \/ num_cmp x y = Some Eq -> ge a b = Ok true).
  { rewrite E. intros [H|H]; rewrite H in C.
    - replace (SFltb (dbl b) (dbl a)) with true; [rewrite orb_true_r; reflexivity|]. unfold SFltb.
      destruct (dbl_num a Sa Tx x Nx) as (Va & Ea). destruct (dbl_num b Sb Ty y Ny) as (Vb & Eb).
      rewrite (sf_cmp _ _ Vb Va), Eb, cmp_opp, Ea, H. reflexivity.
    - rewrite (sf_eq _ _ C (Dx Sa)). reflexivity. }
  rewrite !P. destruct (cmp_total x y Lx Ly) as (c & Hc). rewrite Hc in *. split.
  - intros H. apply G. destruct c; [right|discriminate H|left]; reflexivity.
  - intros H. destruct c; [|reflexivity|]; unfold lt in H; rewrite G in H by auto; discriminate H.
Qed.
Print Assumptions C69_float_less_partial.
Example C69_float_less_example :
  py_cmp Ge_ (VInt 1) (VFloat one) = Some true /\ ge (VInt 1) (VFloat one) = Ok true /\
  lt (VFloat half_) (VInt 1) = Ok true /\ lt (VInt 1) (VFloat half_) = Ok false.
Proof. vm_compute. repeat split. Qed.

(** == of values without floats *)
Theorem C69_equality_partial a b : floatless a = true -> floatless b = true -> eq a b = py_eq a b.
Proof. intros Fa Fb. apply eq_py; assumption. Qed.
Print Assumptions C69_equality_partial.
Example C69_equality_example :
  let a := VTuple [VNone; VList [VInt 1; VStr [97]]; VBytes [97]] in
  floatless a = true /\ eq a a = true /\ eq a (VTuple [VNone; VList [VInt 1; VStr [97]]; VStr [97]]) = false /\
  eq (VList []) (VTuple []) = false.
Proof. vm_compute. repeat split. Qed.
(** and of values with finite floats: equal values are never told apart *)
Theorem C69_equality_floats_partial a b : finite_floats a = true -> finite_floats b = true -> small_ints a = true -> small_ints b = true ->
  py_eq a b = true -> eq a b = true.
Proof. intros. apply eq_floats; assumption. Qed.
Print Assumptions C69_equality_floats_partial.
Example C69_equality_floats_example :
  let a := VList [VFloat one; VTuple [VFloat (S754_zero true)]; VNone] in
  let b := VList [VInt 1; VTuple [VInt 0]; VNone] in
  finite_floats a = true /\ small_ints b = true /\ py_eq a b = true /\ eq a b = true.
Proof. vm_compute. repeat split. Qed.

(** ** min, max and sort *)
Lemma plain_lt l : forallb plain l = true -> comparable l -> forall x y, In x l -> In y l ->
  exists c, py_cmp Lt_ x y = Some (holds Lt_ c) /\ lt x y = Ok (holds Lt_ c) /\ c4 x y = c.
Proof.
  intros P C x y X Y. rewrite forallb_forall in P. destruct (C x y X Y) as (E & N).
  destruct (C69_less_partial x y (P x X) (P y Y) E) as (_ & A). unfold answers in A.
  assert (Q : forall v, plain v = true -> no_none v = true /\ no_nan v = true).
  { intros v Pv. destruct v as [|n|z|s|s|k|k]; try discriminate Pv; try (split; [apply tame_none|apply tame_nan]; exact Pv).
    cbn [plain no_none no_nan] in *. rewrite !forallb_forall in *. split; intros z Hz; [apply tame_none|apply tame_nan]; auto. }
  destruct (Q x (P x X)), (Q y (P y Y)). rewrite py_cmp_c3 in * by assumption.
  destruct (c3 x y) as [c|] eqn:E3; [|elim N; reflexivity]. exists c. split; [reflexivity|]. split; [exact A|]. apply c3_c4, E3.
Qed.
Lemma tame_gt l : forallb tame l = true -> comparable l -> forall x y, In x l -> In y l ->
  exists c, py_cmp Gt_ x y = Some (holds Gt_ c) /\ gt x y = Ok (holds Gt_ c) /\ c4 x y = c.
Proof.
  intros P C x y X Y. rewrite forallb_forall in P. destruct (C x y X Y) as (E & N).
  destruct (C69_greater_partial x y (P x X) (P y Y) E) as (A & _). unfold answers in A.
  rewrite py_cmp_c3 in * by auto using tame_none, tame_nan.
  destruct (c3 x y) as [c|] eqn:E3; [|elim N; reflexivity]. exists c. split; [reflexivity|]. split; [exact A|]. apply c3_c4, E3.
Qed.
Lemma best_first o d better l x : d <> Eq -> (forall c, holds o c = match c, d with Lt, Lt | Gt, Gt => true | _, _ => false end) ->
  (forall y z, In y (x :: l) -> In z (x :: l) -> exists c, py_cmp o y z = Some (holds o c) /\ better y z = Ok (holds o c) /\ c4 y z = c) ->
  exists m, best better x l = Ok m /\ first_best o (x :: l) m.
Proof.
  intros D O H. destruct (best_ok d better l D [x] x [] []) as (m & p & q & E & L & P & Q); [|reflexivity|intros y []|intros y []|].
  { intros y z Y Z. cbn [app] in *. destruct (H y z Y Z) as (c & _ & -> & <-). rewrite O. reflexivity. }
  exists m. split; [exact E|]. cbn [app] in L. exists p, q. split; [exact L|].
  assert (M : In m (x :: l)) by (rewrite L; apply in_or_app; right; left; reflexivity).
  split; intros y Y.
  - destruct (H m y M) as (c & -> & _ & Ec). { rewrite L. apply in_or_app. left. exact Y. }
    rewrite O. rewrite (P y Y) in Ec. subst c. destruct d; [easy|reflexivity|reflexivity].
  - destruct (H y m) as (c & -> & _ & Ec); [rewrite L; apply in_or_app; right; right; exact Y|exact M|].
    rewrite O. specialize (Q y Y). rewrite Ec in Q. destruct c, d; try reflexivity; elim Q; reflexivity.
Qed.

(** max gives the first greatest item, min the first least. *)
Theorem C69_max_partial l : l <> [] -> forallb tame l = true -> comparable l -> exists x, iter_max l = Ok x /\ first_best Gt_ l x.
Proof.
  destruct l as [|x l]; [easy|]. intros _ T C. apply (best_first Gt_ Gt); [discriminate|intros []; reflexivity|].
  intros y z Y Z. apply (tame_gt (x :: l)); assumption.
Qed.
Print Assumptions C69_max_partial.
Theorem C69_min_partial l : l <> [] -> forallb plain l = true -> comparable l -> exists x, iter_min l = Ok x /\ first_best Lt_ l x.
Proof.
  destruct l as [|x l]; [easy|]. intros _ T C. apply (best_first Lt_ Lt); [discriminate|intros []; reflexivity|].
  intros y z Y Z. apply (plain_lt (x :: l)); assumption.
Qed.
Print Assumptions C69_min_partial.
Example C69_max_example :
  let l := [VFloat half_; VInt 1; VFloat one; VInt (-3)] in
  l <> [] /\ forallb tame l = true /\ comparable l /\ iter_max l = Ok (VInt 1).
Proof.
  split; [discriminate|]. split; [reflexivity|]. split; [|reflexivity].
  intros x y [<-|[<-|[<-|[<-|[]]]]] [<-|[<-|[<-|[<-|[]]]]]; vm_compute; split; congruence.
Qed.
Definition rows : list val := [VTuple [VInt 2; VStr [98]]; VTuple [VInt 2; VStr [97]]; VTuple [VInt 1; VStr [99; 100]]].
Example C69_min_example : rows <> [] /\ forallb plain rows = true /\ comparable rows /\ iter_min rows = Ok (VTuple [VInt 1; VStr [99; 100]]).
Proof.
  split; [discriminate|]. split; [reflexivity|]. split; [|reflexivity].
  intros x y [<-|[<-|[<-|[]]]] [<-|[<-|[<-|[]]]]; vm_compute; split; congruence.
Qed.

(** sort() orders the items as Python does; no comparison raises. *)
Theorem C69_sort_partial hs l : heap_sort_ok hs -> forallb plain l = true -> comparable l ->
  (forall x y, In x l -> In y l -> exists b, lt x y = Ok b) /\
  exists l', sort hs l = Ok l' /\ Permutation l l' /\ ascending l'.
Proof.
  intros HH P C. split.
  { intros x y X Y. destruct (plain_lt l P C x y X Y) as (c & _ & E & _). eexists. exact E. }
  assert (SW : strict_weak_order (fun x y => match c4 x y with Lt => true | _ => false end)).
  { constructor.
    - intros x. assert (H := c4_opp x x). destruct (c4 x x); [reflexivity|discriminate H|reflexivity].
    - intros x y z. destruct (c4 x y) eqn:E; try discriminate. destruct (c4 y z) eqn:F; try discriminate. rewrite (c4_trans x y z E F). reflexivity.
    - intros x y z. rewrite (c4_opp x y), (c4_opp y z). destruct (c4 x y) eqn:E; try discriminate. destruct (c4 y z) eqn:F; try discriminate.
      intros _ _ _ _. rewrite (c4_opp x z), (c4_eq_l x y z E), F. auto. }
  destruct (pdqsort_sorts hs (sort_comp (fun x y => truth (lt x y)) (fun x y => truth (ge x y)) (fun x : val => x) false)
    (fun x y => match c4 x y with Lt => true | _ => false end) false l HH SW) as (l' & E & Pm & So).
  { intros p x q y r L.
    assert (X : In x l) by (rewrite L; apply in_or_app; right; left; reflexivity).
    assert (Y : In y l) by (rewrite L; apply in_or_app; right; right; apply in_or_app; right; left; reflexivity).
    unfold sort_comp. destruct (plain_lt l P C x y X Y) as (c & _ & -> & <-), (plain_lt l P C y x Y X) as (c' & _ & -> & <-).
    cbn [truth]. split; [destruct (c4 x y)|destruct (c4 y x)]; reflexivity. }
  exists l'. split; [exact E|]. split; [exact Pm|].
  intros p x q y r L. specialize (So p x q y r L). cbn beta in So.
  assert (I : forall z, In z l' -> In z l) by (intros z; apply Permutation_in, Permutation_sym, Pm).
  destruct (plain_lt l P C y x) as (c & -> & _ & <-).
  - apply I. rewrite L. apply in_or_app. right. right. apply in_or_app. right. left. reflexivity.
  - apply I. rewrite L. apply in_or_app. right. left. reflexivity.
  - destruct (c4 y x); [reflexivity|discriminate So|reflexivity].
Qed.
Print Assumptions C69_sort_partial.
Example C69_sort_example : forallb plain rows = true /\ comparable rows /\ sort (fun _ l => l) rows = Ok (rev rows) /\ ascending (rev rows).
Proof.
  split; [apply C69_min_example|]. split; [apply C69_min_example|]. split; [vm_compute; reflexivity|].
  intros [|a p] x q y r E.
  - injection E as <- E. destruct q as [|b q]; [injection E as <- _; vm_compute; reflexivity|].
    injection E as _ E. destruct q as [|c q]; [injection E as <- _; vm_compute; reflexivity|].
    injection E as _ E. destruct q; discriminate E.
  - injection E as _ E. destruct p as [|b p].
    + injection E as <- E. destruct q as [|c q]; [injection E as <- _; vm_compute; reflexivity|].
      injection E as _ E. destruct q; discriminate E.
    + injection E as _ E. destruct p as [|c p]; [injection E as _ E; destruct q; discriminate E|].
      injection E as _ E. destruct p; discriminate E.
Qed.

(** ** Where it is not Python's *)
(** Every tuple is greater than itself, and none is <= itself. *)
Theorem C69_tuple_refuted l : forallb tame l = true -> exact_with (VTuple l) (VTuple l) = true ->
  gt (VTuple l) (VTuple l) = Ok true /\ le (VTuple l) (VTuple l) = Ok false /\ py_cmp Gt_ (VTuple l) (VTuple l) = Some false.
Proof.
  intros T X. destruct (C69_less_partial (VTuple l) (VTuple l) T T X) as (G & _).
  assert (R : c3 (VTuple l) (VTuple l) = Some Eq).
  { assert (Q : forall v, tame v = true -> c3 v v = Some Eq).
    { intros v. induction v as [|n|x|s|s|k IH|k IH] using val_ind'; try discriminate; intros Tv.
      - cbn [c3 number]. rewrite int_eq, Z.compare_refl. reflexivity.
      - cbn [c3]. rewrite number_float. destruct x as [|[]| |s m e]; try discriminate Tv; try reflexivity.
        cbn [float_num num_cmp]. rewrite Z.compare_refl. reflexivity.
      - cbn [c3]. rewrite lex_refl. reflexivity.
      - cbn [c3]. rewrite lex_refl. reflexivity.
      - rewrite c3_list. cbn [tame] in Tv. induction IH as [|x k Hx Hk IHk]; [reflexivity|]. cbn [forallb items3] in *.
        apply andb_true_iff in Tv. destruct Tv as (T1 & T2). rewrite (Hx T1). apply IHk, T2. }
    rewrite c3_tuple. clear X G. induction l as [|x l IH]; [reflexivity|]. cbn [forallb items3] in *.
    apply andb_true_iff in T. destruct T as (T1 & T2). rewrite (Q x T1). apply IH, T2. }
  assert (P : forall o, py_cmp o (VTuple l) (VTuple l) = Some (holds o Eq)).
  { intros o. rewrite py_cmp_c3, R; [reflexivity|..]; cbn [no_none no_nan]; rewrite forallb_forall in *; intros x Hx; [apply tame_none|apply tame_nan|apply tame_nan]; auto. }
  assert (E : gt (VTuple l) (VTuple l) = Ok true).
  { unfold answers in G. rewrite (P Ge_) in G. cbn [holds ge] in G. unfold gt. cbn [gt_fuel].
    assert (X' : exists f, forallb (good f) l = true).
    { unfold exact_with in X. apply orb_true_iff in X. destruct X as [X|X]; apply andb_true_iff in X; destruct X as (X & _); [exists true|exists false];
        cbn [floatless small_ints] in X; rewrite forallb_forall in *; intros x Hx; unfold good; rewrite (T x Hx), (X x Hx); reflexivity. }
    destruct X' as (f & Gf). rewrite c3_tuple in R. rewrite (items_ge f); [rewrite R; reflexivity|exact Gf|exact Gf|].
    intros x y Hx Hy. pose proof (depth_item x l Hx). pose proof (depth_item y l Hy). cbn [depth] in *. lia. }
  split; [exact E|]. unfold le. rewrite E. split; [reflexivity|]. apply (P Gt_).
Qed.
Print Assumptions C69_tuple_refuted.
Example C69_tuple_example : forallb tame [VInt 1; VStr [97]] = true /\ exact_with (VTuple [VInt 1; VStr [97]]) (VTuple [VInt 1; VStr [97]]) = true.
Proof. split; reflexivity. Qed.

(** Of tuples whose first items are equal tuples neither is less than the other, whatever follows:
    sort() leaves them in any order. *)
Theorem C69_nested_tuple_refuted :
  (forall n y z, lt (VTuple [VTuple [VInt n]; y]) (VTuple [VTuple [VInt n]; z]) = Ok false) /\
  py_cmp Lt_ (VTuple [VTuple [VInt 0]; VInt 1]) (VTuple [VTuple [VInt 0]; VInt 2]) = Some true.
Proof.
  split; [|reflexivity]. intros n y z. unfold lt, ge.
  assert (F : exists g, S (depth (VTuple [VTuple [VInt n]; y]) + depth (VTuple [VTuple [VInt n]; z])) = S (S g)) by (eexists; reflexivity).
  destruct F as (g & ->). cbn [seq_loop gt_fuel gt_int]. rewrite Z.ltb_irrefl. reflexivity.
Qed.
Print Assumptions C69_nested_tuple_refuted.

(** NaN is less than every int, and less than or equal to it. *)
Theorem C69_nan_refuted n : lt (VFloat S754_nan) (VInt n) = Ok true /\ le (VFloat S754_nan) (VInt n) = Ok true /\
  py_cmp Lt_ (VFloat S754_nan) (VInt n) = Some false /\ py_cmp Le_ (VFloat S754_nan) (VInt n) = Some false.
Proof.
  assert (C : forall y, SFcompare y S754_nan = None) by (intros []; reflexivity).
  unfold lt, le, gt. cbn [ge ge_float gt_fuel gt_float bind depth Nat.add]. unfold almost_equals, SFltb.
  rewrite C. unfold dsub, dadd. cbn. auto.
Qed.
Print Assumptions C69_nan_refuted.
(** Infinity is less than itself. *)
Theorem C69_infinity_refuted : lt (VFloat inf) (VFloat inf) = Ok true /\ ge (VFloat inf) (VFloat inf) = Ok false /\ eq (VFloat inf) (VFloat inf) = false /\
  py_cmp Lt_ (VFloat inf) (VFloat inf) = Some false /\ py_eq (VFloat inf) (VFloat inf) = true.
Proof. vm_compute. repeat split. Qed.
Print Assumptions C69_infinity_refuted.
(** An int beyond 2^53 is rounded before it is compared with a float; a float slightly less than
    another is >= it. *)
Theorem C69_rounding_refuted :
  (let a := VInt (2 ^ 53 + 1) in let b := VFloat (S754_finite false (2 ^ 52) 1) in
   gt a b = Ok false /\ eq a b = true /\ py_cmp Gt_ a b = Some true) /\
  (let a := VFloat one in let b := VFloat (S754_finite false (2 ^ 52 + 1) (-52)) in
   ge a b = Ok true /\ lt a b = Ok false /\ py_cmp Lt_ a b = Some true).
Proof. vm_compute. repeat split. Qed.
Print Assumptions C69_rounding_refuted.
(** Lists that start with equal but unordered items raise. *)
Theorem C69_none_refuted l r : gt (VList (VNone :: l)) (VList (VNone :: r)) = Exn TypeError /\
  py_cmp Gt_ (VList [VNone; VInt 2]) (VList [VNone; VInt 1]) = Some true.
Proof. split; [|reflexivity]. unfold gt. cbn [gt_fuel seq_loop depth fold_right Nat.max Nat.add]. reflexivity. Qed.
Print Assumptions C69_none_refuted.
