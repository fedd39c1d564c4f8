(** * Proofs for C75 *)
From Coq Require Import Arith List Bool Lia.
From Verif Require Import Base KbSpec KbModel.
Import ListNotations.
Local Open Scope nat_scope.

(** ** Reading operands *)
Lemma forall2_skipn {A B} (P : A -> B -> Prop) : forall n l l', Forall2 P l l' -> Forall2 P (skipn n l) (skipn n l').
Proof. induction n as [|n IH]; intros l l' F; [exact F|]. destruct F; cbn; auto. Qed.

Lemma forall2_len {A B} (P : A -> B -> Prop) l l' : Forall2 P l l' -> length l = length l'.
Proof. induction 1; cbn; lia. Qed.

Lemma in_boundsb_ok sh idx : in_bounds sh idx -> in_boundsb sh idx = true.
Proof.
  intros F. unfold in_boundsb. rewrite (forall2_len _ _ _ F), Nat.eqb_refl. cbn [andb].
  induction F as [|i n idx sh L F IH]; [reflexivity|]. cbn [combine forallb fst snd].
  rewrite IH. apply Nat.ltb_lt in L. now rewrite L.
Qed.

Lemma index_same : forall sh j, in_bounds sh j ->
  map (fun x => if fst x =? 1 then 0 else snd x) (combine sh j) = j.
Proof.
  intros sh j F. induction F as [|i n idx sh L F IH]; [reflexivity|]. cbn [combine map fst snd].
  rewrite IH. destruct (Nat.eqb_spec n 1) as [->|]; [|reflexivity]. f_equal. lia.
Qed.

Lemma operand_ok {A} (sh os idx : list nat) (a : list nat -> A) :
  in_bounds os idx -> skipn (length os - length sh) os = sh ->
  operand sh a idx = Ok (a (numpy_index sh idx)).
Proof.
  intros F E. unfold operand. destruct (Nat.eqb_spec (length sh) 0) as [L|L].
  - destruct sh; [|discriminate]. reflexivity.
  - unfold affine_map. destruct (Nat.eqb_spec (length sh) 0); [lia|].
    unfold numpy_index. rewrite (forall2_len _ _ _ F).
    assert (G : in_bounds sh (skipn (length os - length sh) idx)).
    { unfold in_bounds. rewrite <- E at 2. apply forall2_skipn. exact F. }
    unfold read. rewrite in_boundsb_ok by exact G. now rewrite index_same by exact G.
Qed.

Lemma loop_step_ok {A B C} (f : A -> B -> C) ls l rs r os idx :
  in_bounds os idx -> skipn (length os - length ls) os = ls -> skipn (length os - length rs) os = rs ->
  loop_step f ls l rs r os idx = Ok (idx, numpy_at f ls l rs r idx).
Proof.
  intros F El Er. unfold loop_step. pose proof (forall2_len _ _ _ F) as L.
  assert (M : affine_map (length os) idx = idx).
  { unfold affine_map. rewrite L, Nat.sub_diag. now destruct (length os =? 0). }
  rewrite M, L, Nat.eqb_refl. rewrite (operand_ok ls os) by auto. cbn [bind].
  rewrite (operand_ok rs os) by auto. cbn [bind]. now rewrite in_boundsb_ok.
Qed.

(** ** Shapes *)
Section Shapes.
Context {sym : Type}.
Variables (equals : sym -> sym -> bool) (simplify : sym -> sym) (same : sym -> sym -> bool) (value : sym -> nat).
Hypothesis equals_ok : forall x y, equals x y = true -> value x = value y.
Hypothesis simplify_ok : forall x, value (simplify x) = value x.
Notation sz := (map (size value)).

Lemma fill_all n (a : list (axis sym)) : length a = n -> fill n a = map Some a.
Proof. intros <-. unfold fill. rewrite Nat.sub_diag. apply app_nil_r. Qed.

Lemma axis_ok x y z : calculate_output_axis equals simplify (Some x) (Some y) = Ok z ->
  size value x = size value z /\ size value y = size value z.
Proof.
  destruct x as [n|x], y as [k|y]; cbn; try discriminate.
  - destruct (Nat.eqb_spec n k); [|discriminate]. intros [= <-]. subst. auto.
  - destruct (equals x y) eqn:E; [|discriminate]. intros [= <-]. cbn. rewrite simplify_ok. apply equals_ok in E. auto.
Qed.

Lemma axes_none_l : forall b : list (axis sym), output_axes equals simplify (repeat None (length b)) (map Some b) = Ok b.
Proof. induction b as [|y b IH]; [reflexivity|]. cbn [length repeat map output_axes calculate_output_axis bind]. now rewrite IH. Qed.
Lemma axes_none_r : forall a : list (axis sym), output_axes equals simplify (map Some a) (repeat None (length a)) = Ok a.
Proof.
  induction a as [|x a IH]; [reflexivity|]. cbn [length repeat map output_axes]. rewrite IH. now destruct x.
Qed.

Lemma firstn_sz (l : list (axis sym)) : firstn (length l) (sz l) = sz l.
Proof. rewrite <- (map_length (size value) l). apply firstn_all. Qed.

Lemma axes_ok : forall a b out,
  output_axes equals simplify (fill (Nat.max (length a) (length b)) a) (fill (Nat.max (length a) (length b)) b) = Ok out ->
  stretch (sz a) (sz b) = Some (sz out) /\ length out = Nat.max (length a) (length b) /\
  firstn (length a) (sz out) = sz a /\ firstn (length b) (sz out) = sz b.
Proof.
  induction a as [|x a IH]; intros b out E.
  - cbn [length Nat.max] in *. rewrite (fill_all (length b) b eq_refl) in E.
    unfold fill in E. cbn [map app length] in E. rewrite Nat.sub_0_r, axes_none_l in E. injection E as <-.
    cbn [firstn map stretch]. repeat split. apply firstn_sz.
  - destruct b as [|y b].
    + cbn [length] in E. rewrite Nat.max_0_r in E. rewrite (fill_all (S (length a)) (x :: a) eq_refl) in E.
      unfold fill in E. cbn [map app length] in E. rewrite Nat.sub_0_r in E.
      pose proof (axes_none_r (x :: a)) as K. cbn [map length] in K. rewrite K in E. injection E as <-.
      split; [reflexivity|]. split; [reflexivity|]. split; [apply firstn_sz|reflexivity].
    + cbn [length Nat.max] in E. unfold fill in E. cbn [map app length Nat.sub output_axes] in E.
      destruct (calculate_output_axis equals simplify (Some x) (Some y)) as [z| | |] eqn:Z; try discriminate.
      cbn [bind] in E. fold (fill (Nat.max (length a) (length b)) a) in E. fold (fill (Nat.max (length a) (length b)) b) in E.
      destruct (output_axes equals simplify (fill (Nat.max (length a) (length b)) a) (fill (Nat.max (length a) (length b)) b))
        as [c| | |] eqn:C; try discriminate. injection E as <-.
      destruct (IH b c C) as (I1 & I2 & I3 & I4). destruct (axis_ok x y z Z) as (Zx & Zy).
      cbn [map stretch length firstn Nat.max]. rewrite Zx, Zy, Nat.eqb_refl, I1, I2, I3, I4. auto.
Qed.

Lemma scalar_no_one (s : list (axis sym)) : no_one s -> s <> [] -> is_scalar_shape s = Ok false.
Proof.
  intros N Ne. destruct s as [|[n|x] s]; [congruence| |reflexivity]. cbn.
  destruct (Nat.eqb_spec n 1) as [->|]; [|reflexivity]. exfalso. apply (N (Num 1)); [now left|reflexivity].
Qed.

Lemma one_scalar : is_scalar_shape [@Num sym 1] = Ok true.
Proof. reflexivity. Qed.

Lemma suffix_of_firstn (s : list nat) (os : list nat) :
  firstn (length s) (rev os) = rev s -> skipn (length os - length s) os = s.
Proof.
  intros H. rewrite <- (rev_involutive os) at 2. rewrite skipn_rev, rev_length.
  destruct (Nat.le_gt_cases (length s) (length os)) as [L|L].
  - replace (length os - (length os - length s)) with (length s) by lia. now rewrite H, rev_involutive.
  - replace (length os - (length os - length s)) with (length os) by lia.
    rewrite firstn_all2 in H by (rewrite rev_length; lia). rewrite firstn_all2 by (rewrite rev_length; lia).
    now rewrite H, rev_involutive.
Qed.

Lemma stretch_nil_r a : stretch a [] = Some a.
Proof. now destruct a. Qed.

Lemma graph_ok s1 s2 out : no_one s1 -> no_one s2 ->
  graph_broadcast equals simplify same s1 s2 = Ok out ->
  numpy_shape (sz s1) (sz s2) = Some (sz out) /\
  skipn (length (sz out) - length (sz s1)) (sz out) = sz s1 /\
  skipn (length (sz out) - length (sz s2)) (sz out) = sz s2.
Proof.
  intros N1 N2 H. unfold graph_broadcast in H. cbv zeta in H.
  assert (Fin : forall r v, convert_back same v r = Ok out -> out = r \/ (r = [Num 1] /\ out = [])).
  { intros r v K. unfold convert_back in K.
    destruct r as [|[[|[|n]]|x] [|y r]]; try (destruct (forallb _ _); [injection K as <-; auto|discriminate]).
    injection K as <-. auto. }
  destruct s1 as [|x1 s1].
  - destruct s2 as [|x2 s2].
    + cbn in H. injection H as <-. cbn. auto.
    + assert (S2 : is_scalar_shape (x2 :: s2) = Ok false) by (apply scalar_no_one; [auto|discriminate]).
      unfold typing_broadcast, broadcast_with_scalar in H. rewrite one_scalar, S2 in H. cbn [bind orb andb] in H.
      replace (length [@Num sym 1] - length (x2 :: s2)) with 0 in H by (cbn [length]; lia). cbn [repeat app] in H.
      apply Fin in H. destruct H as [->|(E & _)].
      * split; [unfold numpy_shape; change (rev (sz [])) with (@nil nat); cbn [stretch option_map]; now rewrite rev_involutive|].
        split; [apply skipn_all2; cbn [map length]; lia|]. now rewrite Nat.sub_diag.
      * exfalso. injection E as -> ->. apply (N2 (Num 1)); [now left|reflexivity].
  - assert (S1 : is_scalar_shape (x1 :: s1) = Ok false) by (apply scalar_no_one; [auto|discriminate]).
    destruct s2 as [|x2 s2].
    + unfold typing_broadcast, broadcast_with_scalar in H. rewrite one_scalar, S1 in H. cbn [bind orb andb] in H.
      replace (length [@Num sym 1] - length (x1 :: s1)) with 0 in H by (cbn [length]; lia). cbn [repeat app] in H.
      apply Fin in H. destruct H as [->|(E & _)].
      * split; [unfold numpy_shape; change (rev (sz [])) with (@nil nat); rewrite stretch_nil_r; cbn [option_map]; now rewrite rev_involutive|].
        split; [now rewrite Nat.sub_diag|]. apply skipn_all2. cbn [map length]. lia.
      * exfalso. injection E as -> ->. apply (N1 (Num 1)); [now left|reflexivity].
    + assert (S2 : is_scalar_shape (x2 :: s2) = Ok false) by (apply scalar_no_one; [auto|discriminate]).
      unfold typing_broadcast in H. rewrite S1, S2 in H. cbn [bind orb] in H.
      set (t1 := x1 :: s1) in *. set (t2 := x2 :: s2) in *.
      destruct (output_axes equals simplify (fill (Nat.max (length t1) (length t2)) (rev t1))
                  (fill (Nat.max (length t1) (length t2)) (rev t2))) as [c| | |] eqn:C; try discriminate.
      cbn [rmap bind] in H.
      replace (Nat.max (length t1) (length t2)) with (Nat.max (length (rev t1)) (length (rev t2))) in C
        by (now rewrite !rev_length).
      destruct (axes_ok (rev t1) (rev t2) c C) as (A1 & A2 & A3 & A4).
      assert (K : out = rev c).
      { apply Fin in H. destruct H as [H|(E & _)]; [exact H|]. exfalso.
        assert (c = [Num 1]) by (rewrite <- (rev_involutive c), E; reflexivity). subst c.
        cbn [length] in A2. rewrite !rev_length in A2. cbn [length t1 t2] in A2.
        destruct s1 as [|? ?], s2 as [|? ?]; cbn [length] in A2; try lia.
        unfold t1, t2 in C. cbn in C. destruct x1 as [n1|y1], x2 as [n2|y2]; cbn in C; try discriminate.
        - destruct (Nat.eqb_spec n1 n2); [|discriminate]. injection C as ->. apply (N1 (Num 1)); [now left|reflexivity].
        - destruct (equals y1 y2); discriminate. }
      subst out. split.
      * unfold numpy_shape. rewrite <- !map_rev. rewrite A1. cbn [option_map]. now rewrite map_rev.
      * split; apply suffix_of_firstn; rewrite <- !map_rev, rev_involutive, map_length.
        -- rewrite <- (rev_length t1). exact A3.
        -- rewrite <- (rev_length t2). exact A4.
Qed.

Lemma kernel_ok {A B C} (f : A -> B -> C) (l : list nat -> A) (r : list nat -> B) i j s1 s2 out :
  no_one s1 -> no_one s2 -> binary_op equals simplify same i j s1 s2 = Ok out ->
  numpy_shape (sz s1) (sz s2) = Some (sz out) /\
  forall idx, in_bounds (sz out) idx ->
    loop_step f (sz s1) l (sz s2) r (sz out) idx = Ok (idx, numpy_at f (sz s1) l (sz s2) r idx).
Proof.
  intros N1 N2 H. unfold binary_op in H.
  destruct (graph_broadcast equals simplify same s1 s2) as [o| | |] eqn:G; try discriminate. cbn [bind] in H.
  assert (o = out).
  { destruct ((length s1 =? 0) && (length s2 =? 0)); [congruence|].
    destruct (nth_error (sub_graph_inputs i j) 1); congruence. }
  subst o. destruct (graph_ok s1 s2 out N1 N2 G) as (G1 & G2 & G3). split; [exact G1|].
  intros idx F. now apply loop_step_ok.
Qed.
End Shapes.

(** ** Constant shapes: exactly the pairs of shapes NumPy accepts *)
Section Constants.
Context {sym : Type}.
Variables (equals : sym -> sym -> bool) (simplify : sym -> sym) (same : sym -> sym -> bool).
Notation nums := (map (@Num sym)).

Lemma axes_num : forall a b, ~ In 1 a -> ~ In 1 b ->
  output_axes equals simplify (fill (Nat.max (length a) (length b)) (nums a)) (fill (Nat.max (length a) (length b)) (nums b)) =
    match stretch a b with Some c => Ok (nums c) | None => Exn ValueError end.
Proof.
  induction a as [|x a IH]; intros b N1 N2.
  - cbn [length Nat.max stretch]. rewrite (fill_all (length b) (nums b)) by apply map_length.
    unfold fill. cbn [map app length]. rewrite Nat.sub_0_r.
    pose proof (axes_none_l equals simplify (nums b)) as K. rewrite map_length in K. exact K.
  - destruct b as [|y b].
    + cbn [length Nat.max stretch]. rewrite (fill_all (S (length a)) (nums (x :: a))) by (cbn [map length]; now rewrite map_length).
      unfold fill. cbn [map app length]. rewrite Nat.sub_0_r.
      pose proof (axes_none_r equals simplify (nums (x :: a))) as K. cbn [map length] in K. rewrite map_length in K. exact K.
    + cbn [length Nat.max]. unfold fill. cbn [map app length Nat.sub output_axes calculate_output_axis stretch].
      fold (fill (Nat.max (length a) (length b)) (nums a)). fold (fill (Nat.max (length a) (length b)) (nums b)).
      destruct (Nat.eqb_spec x y) as [->|Nxy].
      * cbn [bind]. rewrite IH; [|intros K; apply N1; now right|intros K; apply N2; now right]. destruct (stretch a b); reflexivity.
      * cbn [bind]. destruct (Nat.eqb_spec x 1) as [->|]; [exfalso; apply N1; now left|].
        destruct (Nat.eqb_spec y 1) as [->|]; [exfalso; apply N2; now left|]. reflexivity.
Qed.

Lemma stretch_in : forall a b c, stretch a b = Some c -> ~ In 1 a -> ~ In 1 b -> forall z, In z c -> In z a \/ In z b.
Proof.
  induction a as [|x a IH]; intros b c E N1 N2 z I.
  - injection E as <-. auto.
  - destruct b as [|y b]; [injection E as <-; auto|]. cbn [stretch] in E.
    destruct (Nat.eqb_spec x y) as [->|Nxy].
    + destruct (stretch a b) as [c'|] eqn:S; [|discriminate]. injection E as <-. destruct I as [->|I]; [left; now left|].
      destruct (IH b c' S) with (z := z) as [K|K]; auto; [intros K; apply N1; now right|intros K; apply N2; now right|left; now right|right; now right].
    + destruct (Nat.eqb_spec x 1) as [->|]; [exfalso; apply N1; now left|].
      destruct (Nat.eqb_spec y 1) as [->|]; [exfalso; apply N2; now left|discriminate].
Qed.

Lemma no_one_nums a : ~ In 1 a -> no_one (nums a).
Proof. intros N x I. apply in_map_iff in I. destruct I as (n & <- & I). intros [= ->]. auto. Qed.

Lemma keys_found c s1 s2 : (forall z, In z c -> In z s1 \/ In z s2) ->
  forallb (fun a => existsb (key_eqb same a) (nums s1 ++ nums s2)) (nums c) = true.
Proof.
  intros H. apply forallb_forall. intros a I. apply in_map_iff in I. destruct I as (n & <- & I).
  apply existsb_exists. exists (Num n). split; [|cbn; apply Nat.eqb_refl].
  apply in_or_app. destruct (H n I); [left|right]; now apply in_map.
Qed.

Lemma graph_num a b : ~ In 1 a -> ~ In 1 b ->
  graph_broadcast equals simplify same (nums a) (nums b) =
    match numpy_shape a b with Some c => Ok (nums c) | None => Exn ValueError end.
Proof.
  intros N1 N2. unfold graph_broadcast. cbv zeta.
  assert (Fin : forall c v, ~ In 1 c -> forallb (fun x => existsb (key_eqb same x) v) (nums c) = true ->
     convert_back same v (nums c) = Ok (nums c)).
  { intros c v N K. unfold convert_back. rewrite K. destruct c as [|[|[|n]] [|y c]]; try reflexivity.
    exfalso. apply N. now left. }
  destruct a as [|x1 s1].
  - destruct b as [|x2 s2]; [reflexivity|]. cbn [map]. change (Num x2 :: nums s2) with (nums (x2 :: s2)).
    assert (S2 : is_scalar_shape (nums (x2 :: s2)) = Ok false).
    { apply scalar_no_one; [now apply no_one_nums|discriminate]. }
    unfold typing_broadcast, broadcast_with_scalar. rewrite one_scalar, S2. cbn [bind orb andb].
    replace (length [@Num sym 1] - length (nums (x2 :: s2))) with 0 by (cbn [map length]; lia). cbn [repeat app].
    unfold numpy_shape. change (rev []) with (@nil nat). cbn [stretch option_map]. rewrite rev_involutive.
    apply Fin; [exact N2|]. apply (keys_found (x2 :: s2) [] (x2 :: s2)). auto.
  - assert (S1 : is_scalar_shape (nums (x1 :: s1)) = Ok false).
    { apply scalar_no_one; [now apply no_one_nums|discriminate]. }
    destruct b as [|x2 s2].
    + cbn [map] in *. change (Num x1 :: nums s1) with (nums (x1 :: s1)) in *.
      unfold typing_broadcast, broadcast_with_scalar. rewrite one_scalar, S1. cbn [bind orb andb].
      replace (length [@Num sym 1] - length (nums (x1 :: s1))) with 0 by (cbn [map length]; lia). cbn [repeat app].
      unfold numpy_shape. change (rev []) with (@nil nat). rewrite stretch_nil_r. cbn [option_map]. rewrite rev_involutive.
      apply Fin; [exact N1|]. apply (keys_found (x1 :: s1) (x1 :: s1) []). auto.
    + assert (S2 : is_scalar_shape (nums (x2 :: s2)) = Ok false).
      { apply scalar_no_one; [now apply no_one_nums|discriminate]. }
      cbn [map] in *. change (Num x1 :: nums s1) with (nums (x1 :: s1)) in *.
      change (Num x2 :: nums s2) with (nums (x2 :: s2)) in *.
      unfold typing_broadcast. rewrite S1, S2. cbn [bind orb].
      set (t1 := x1 :: s1) in *. set (t2 := x2 :: s2) in *. rewrite <- !map_rev.
      replace (Nat.max (length (nums t1)) (length (nums t2))) with (Nat.max (length (rev t1)) (length (rev t2)))
        by (now rewrite !map_length, !rev_length).
      rewrite axes_num by (now rewrite <- in_rev). unfold numpy_shape.
      destruct (stretch (rev t1) (rev t2)) as [c|] eqn:S; [|reflexivity]. cbn [rmap bind option_map].
      rewrite <- map_rev.
      assert (I : forall z, In z (rev c) -> In z t1 \/ In z t2).
      { intros z K. apply in_rev in K. rewrite (in_rev t1), (in_rev t2).
        apply (stretch_in _ _ _ S); auto; now rewrite <- in_rev. }
      apply Fin; [|now apply keys_found]. intros K. destruct (I 1 K); auto.
Qed.
End Constants.
