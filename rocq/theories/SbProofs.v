(** * Chained subscripts: proofs *)

From Coq Require Import ZArith List Bool Lia.
From Verif Require Import Base SbSpec SbModel.
Import ListNotations.
Local Open Scope Z_scope.

Definition ok {A} (r : res A) : option A := match r with Ok x => Some x | _ => None end.

Lemma ok_bind {A B} (r : res A) (f : A -> res B) :
  ok (bind r f) = match ok r with Some x => ok (f x) | None => None end.
Proof. destruct r; reflexivity. Qed.

Lemma rd_ok {A} (l : list A) i : ok (rd l i) = nth_error l i.
Proof. unfold rd. destruct (nth_error l i); reflexivity. Qed.

Lemma correction_ok n i :
  (0 <=? index_correction i n) && (index_correction i n <? n) = (- n <=? i) && (i <? n).
Proof. unfold index_correction. destruct (Z.ltb_spec i 0); lia. Qed.
Lemma correction_mod n i : (- n <=? i) && (i <? n) = true -> index_correction i n = i mod n.
Proof.
  intros H. unfold index_correction. destruct (Z.ltb_spec i 0).
  - apply Z.mod_unique with (q := -1); lia.
  - symmetry. apply Z.mod_small; lia.
Qed.

Lemma seq_get_ok {A} (l : list A) i : ok (seq_get l i) = item_at l i.
Proof.
  unfold seq_get, item_at. cbv zeta. rewrite correction_ok.
  destruct ((- Z.of_nat (length l) <=? i) && (i <? Z.of_nat (length l))) eqn:E; [|reflexivity].
  rewrite (correction_mod _ _ E). unfold rdz.
  pose proof (Z.mod_pos_bound i (Z.of_nat (length l)) ltac:(lia)).
  destruct (Z.ltb_spec (i mod Z.of_nat (length l)) 0); [lia|]. apply rd_ok.
Qed.

Lemma load_ok h b o : ok (load h b o) = cell h b o.
Proof.
  unfold load, cell. destruct (nth_error h b) as [[| |l]|]; try reflexivity.
  unfold rdz. destruct (Z.ltb_spec o 0), (Z.leb_spec 0 o); try lia; [reflexivity|apply rd_ok].
Qed.

Lemma store_ok h b o z : ok (store h b o z) = set_cell h b o z.
Proof.
  unfold store, set_cell. destruct (nth_error h b) as [[| |l]|]; try reflexivity.
  destruct ((0 <=? o) && (o <? Z.of_nat (length l))); reflexivity.
Qed.

Lemma kernel_getitem_ok h x k : ok (kernel_getitem h x k) = py_get h x k.
Proof.
  destruct x as [| |l|l|a|w]; try (destruct k; reflexivity).
  - destruct k; try reflexivity. cbn [kernel_getitem as_int py_get bind]. rewrite ok_bind, seq_get_ok.
    destruct (item_at l z); reflexivity.
  - destruct k; try reflexivity. apply seq_get_ok.
  - cbn [kernel_getitem py_get]. destruct (nth_error h a) as [[l|d|l]|]; try (destruct k; reflexivity).
    + destruct k; try reflexivity. apply seq_get_ok.
    + replace (match k with VNum _ | _ => if hashable k then lookup d k else None end)
        with (if hashable k then lookup d k else None) by (destruct k; reflexivity).
      destruct (hashable k); [|reflexivity]. destruct (lookup d k); reflexivity.
  - destruct k as [|i| | | |]; try reflexivity. destruct w as [b o sh st].
    cbn [kernel_getitem py_get]. unfold nd_get_item, part. cbn [v_shape v_strides v_buf v_off].
    destruct sh as [|n sh]; [reflexivity|]. cbn [rd nth_error bind]. cbv zeta. rewrite correction_ok.
    destruct st as [|s st].
    { cbn [nth_error bind]. destruct (_ && _); reflexivity. }
    destruct ((- n <=? i) && (i <? n)) eqn:E; [|reflexivity]. rewrite (correction_mod _ _ E).
    unfold rd. cbn [nth_error bind length Nat.eqb skipn].
    destruct sh as [|m sh]; cbn [length Nat.eqb v_shape v_buf v_off].
    + rewrite <- load_ok. destruct (load h b (o + i mod n * s)); reflexivity.
    + cbn [ok]. do 3 f_equal. lia.
Qed.

(** Several subscripts, one after the other. *)
Fixpoint py_gets (h : heap) (x : val) (ks : list val) : option val :=
  match ks with
  | [] => Some x
  | k :: ks => match py_get h x k with Some y => py_gets h y ks | None => None end
  end.

Lemma getitems_ok h ks : forall x, ok (getitems h x ks) = py_gets h x ks.
Proof.
  induction ks as [|k ks IH]; intros x; [reflexivity|]. cbn [getitems py_gets].
  rewrite ok_bind, kernel_getitem_ok. destruct (py_get h x k); [apply IH|reflexivity].
Qed.

(** ** Arrays *)

Lemma descend_shift a c sh st : forall is i p,
  descend (a :: sh) (c :: st) (S i) p is = descend sh st i p is.
Proof.
  induction is as [|x is IH]; intros i p; [reflexivity|]. cbn [descend].
  unfold rd. cbn [nth_error]. destruct (nth_error sh i); [|reflexivity]. cbn [bind]. cbv zeta.
  destruct (_ && _); [|reflexivity]. destruct (nth_error st i); [|reflexivity]. cbn [bind]. apply IH.
Qed.

Lemma py_gets_num h z ks : ks <> [] -> py_gets h (VNum z) ks = None.
Proof. destruct ks; [congruence|reflexivity]. Qed.

Lemma fused_ok h : forall is w, is <> [] ->
  ok (nd_fused_get_item h w is) = py_gets h (VArr w) (map VNum is).
Proof.
  induction is as [|x is IH]; intros w N; [congruence|]. destruct w as [b o sh st].
  unfold nd_fused_get_item. cbv zeta. cbn [v_shape v_strides v_off v_buf map py_gets py_get]. unfold part.
  cbn [v_shape v_strides v_off v_buf]. destruct sh as [|n sh]; [reflexivity|]. cbn [descend].
  unfold rd at 1. cbn [nth_error bind]. cbv zeta. rewrite correction_ok.
  destruct st as [|s st].
  { cbn [rd nth_error bind]. destruct (length (x :: is) <=? length (n :: sh))%nat; [|reflexivity].
    destruct (_ && _); reflexivity. }
  unfold rd. cbn [nth_error bind]. rewrite descend_shift. cbn [length].
  change (S (length is) <=? S (length sh))%nat with (length is <=? length sh)%nat.
  change (S (length sh) =? S (length is))%nat with (length sh =? length is)%nat.
  cbn [skipn].
  destruct ((- n <=? x) && (x <? n)) eqn:E.
  2:{ destruct (_ <=? _)%nat; reflexivity. }
  rewrite (correction_mod _ _ E), (Z.mul_comm s). cbn [v_shape v_buf v_off].
  destruct is as [|y is].
  - cbn [length map py_gets descend bind]. destruct sh as [|m sh]; cbn [length Nat.leb Nat.eqb skipn].
    + rewrite <- load_ok. destruct (load h b (o + x mod n * s)); reflexivity.
    + reflexivity.
  - specialize (IH (View b (o + x mod n * s) sh st) ltac:(discriminate)).
    unfold nd_fused_get_item in IH. cbv zeta in IH. cbn [v_shape v_strides v_off v_buf] in IH.
    destruct sh as [|m sh].
    + cbn [length Nat.leb]. destruct (cell h b (o + x mod n * s)); reflexivity.
    + exact IH.
Qed.

(** A key that is no int. *)
Lemma not_int h : forall ks x, mapM as_int ks = Exn TypeError ->
  (exists w, x = VArr w) \/ (exists z, x = VNum z) -> py_gets h x ks = None.
Proof.
  induction ks as [|k ks IH]; intros x H X; [discriminate|]. cbn [py_gets].
  destruct X as [[w ->]|[z ->]]; [|destruct k; reflexivity].
  cbn [mapM] in H. destruct k as [|i| | | |]; try reflexivity. cbn [as_int bind] in H.
  assert (H2 : mapM as_int ks = Exn TypeError) by (destruct (mapM as_int ks); cbn [bind] in H; congruence).
  cbn [py_get]. destruct (part w i) as [w'|]; [|reflexivity].
  destruct (v_shape w').
  - destruct (cell h (v_buf w') (v_off w')); [|reflexivity]. apply IH; [exact H2|]. right. eexists. reflexivity.
  - apply IH; [exact H2|]. left. eexists. reflexivity.
Qed.

Lemma mapM_int : forall ks, (exists is, mapM as_int ks = Ok is /\ ks = map VNum is) \/ mapM as_int ks = Exn TypeError.
Proof.
  induction ks as [|k ks IH]; [left; exists []; split; reflexivity|]. cbn [mapM].
  destruct k as [|i| | | |]; try (right; reflexivity). cbn [as_int bind].
  destruct IH as [(is & -> & ->)| ->]; [left; exists (i :: is); split; reflexivity|right; reflexivity].
Qed.

Lemma fused_getitem_ok h x ks : ks <> [] -> ok (fused_getitem h x ks) = py_gets h x ks.
Proof.
  intros N. destruct x as [| | | | |w]; try apply getitems_ok. cbn [fused_getitem].
  destruct (mapM_int ks) as [(is & E & ->)|E]; rewrite E; cbn [bind].
  - apply fused_ok. intros ->. apply N. reflexivity.
  - symmetry. apply not_int; [exact E|]. left. eexists. reflexivity.
Qed.

(** ** Assignment *)

Fixpoint py_sets (assign : heap -> view -> val -> option heap) (h : heap) (x : val) (ks : list val) (v : val) : option heap :=
  match ks with
  | [] => None
  | [k] => py_set assign h x k v
  | k :: ks => match py_get h x k with Some y => py_sets assign h y ks v | None => None end
  end.

Lemma py_sets_cons2 assign h x k k' ks v : py_sets assign h x (k :: k' :: ks) v =
  match py_get h x k with Some y => py_sets assign h y (k' :: ks) v | None => None end.
Proof. reflexivity. Qed.

Lemma py_sets_last assign h v k : forall ks x,
  py_sets assign h x (ks ++ [k]) v = match py_gets h x ks with Some y => py_set assign h y k v | None => None end.
Proof.
  induction ks as [|k0 ks IH]; intros x; [reflexivity|].
  change ((k0 :: ks) ++ [k]) with (k0 :: (ks ++ [k])).
  destruct (ks ++ [k]) as [|k1 r] eqn:E; [destruct ks; discriminate|].
  rewrite py_sets_cons2. cbn [py_gets]. destruct (py_get h x k0); [|reflexivity].
  rewrite <- IH. reflexivity.
Qed.

(** A number and an array whose axes are not used up. *)
Definition broadcast (h : heap) (x : val) (ks : list val) (v : val) : Prop :=
  exists z w, v = VNum z /\ py_gets h x (removelast ks) = Some (VArr w) /\ length (v_shape w) <> 1%nat.

Lemma helper_ok assign h w v : ok (helper assign h w v) = assign h w v.
Proof. unfold helper. destruct (assign h w v); reflexivity. Qed.

Lemma kernel_setitem_ok assign h x k v :
  (forall h', kernel_setitem assign h x k v = Ok h' -> py_set assign h x k v = Some h') /\
  (~ broadcast h x [k] v -> ok (kernel_setitem assign h x k v) = py_set assign h x k v).
Proof.
  assert (NB : (forall w, x = VArr w -> forall z, v = VNum z -> length (v_shape w) = 1%nat) ->
    ok (kernel_setitem assign h x k v) = py_set assign h x k v).
  { intros HW. destruct x as [| |l|l|a|w]; try (destruct k; reflexivity).
    - cbn [kernel_setitem py_set]. destruct (nth_error h a) as [[l|d|l]|]; try (destruct k; reflexivity).
      destruct k as [|i| | | |]; try reflexivity. cbn [as_int bind]. cbv zeta. rewrite correction_ok.
        unfold item_at. cbv zeta.
        destruct ((- Z.of_nat (length l) <=? i) && (i <? Z.of_nat (length l))) eqn:E; [|reflexivity].
        rewrite (correction_mod _ _ E). cbn [ok].
        destruct (nth_error l (Z.to_nat (i mod Z.of_nat (length l)))) eqn:F; [reflexivity|].
        apply nth_error_None in F. pose proof (Z.mod_pos_bound i (Z.of_nat (length l)) ltac:(lia)). lia.
    - destruct k as [|i| | | |]; try reflexivity. specialize (HW w eq_refl). destruct w as [b o sh st].
      cbn [kernel_setitem py_set v_shape] in *. unfold nd_set_item, part. cbn [v_shape v_strides v_off v_buf].
      assert (G : forall (f : Z -> res heap) (g : view -> option heap), (forall p, ok (f p) = g (View b p (skipn 1 sh) (skipn 1 st))) ->
        ok (let! n := rd sh 0 in
            if (0 <=? index_correction i n) && (index_correction i n <? n) then
              let! s := rd st 0 in f (o + s * index_correction i n) else Exn CheckFailed) =
        match match sh, st with
              | n :: sh, s :: st => if (- n <=? i) && (i <? n) then Some (View b (o + i mod n * s) sh st) else None
              | _, _ => None end with
        | Some w' => g w' | None => None end).
      { intros f g FG. destruct sh as [|n sh]; [reflexivity|]. cbn [rd nth_error bind]. rewrite correction_ok.
        unfold rd. destruct st as [|s st]; cbn [nth_error bind].
        { destruct (_ && _); reflexivity. }
        destruct ((- n <=? i) && (i <? n)) eqn:E; [|reflexivity]. rewrite (correction_mod _ _ E), FG.
        cbn [skipn]. rewrite (Z.mul_comm s). reflexivity. }
      destruct v as [|z| | | |];
        try (apply (G (fun p => helper assign h (View b p (skipn 1 sh) (skipn 1 st)) _) (fun w' => assign h w' _));
             intros p; apply helper_ok).
      specialize (HW z eq_refl). rewrite HW. cbn [Nat.eqb].
      apply (G (fun p => store h b p z) (fun w' => fill h (v_buf w') (v_off w') (v_shape w') (v_strides w') z)).
      intros p. cbn [v_buf v_off v_shape v_strides]. destruct sh as [|n [|]]; try discriminate. cbn [skipn].
      rewrite store_ok. reflexivity. }
  split.
  - intros h' H. rewrite <- NB; [rewrite H; reflexivity|].
    intros w -> z ->. cbn [kernel_setitem] in H. destruct k; try discriminate. unfold nd_set_item in H.
    destruct (Nat.eqb_spec (length (v_shape w)) 1); [assumption|discriminate].
  - intros HB. apply NB. intros w -> z ->. destruct (Nat.eq_dec (length (v_shape w)) 1) as [E|E]; [exact E|].
    exfalso. apply HB. exists z, w. cbn [removelast py_gets]. repeat split; assumption.
Qed.

Lemma fused_set_ok assign h v : forall is w, is <> [] ->
  (forall z, v = VNum z -> length is = length (v_shape w)) ->
  ok (nd_fused_set_item assign h w is v) = py_sets assign h (VArr w) (map VNum is) v.
Proof.
  intros is w N HV.
  revert w HV. induction is as [|x is IH]; intros w HV; [congruence|]. clear N.
  destruct w as [b o sh st]. cbn [v_shape] in HV.
  unfold nd_fused_set_item. cbv zeta. cbn [v_shape v_strides v_off v_buf].
  destruct sh as [|n sh].
  { assert (R : py_sets assign h (VArr (View b o [] st)) (map VNum (x :: is)) v = None).
    { cbn [map]. destruct (map VNum is); reflexivity. }
    rewrite R. destruct v; reflexivity. }
  cbn [descend]. unfold rd. cbn [nth_error bind]. cbv zeta. rewrite correction_ok.
  destruct st as [|s st].
  { assert (R : py_sets assign h (VArr (View b o (n :: sh) [])) (map VNum (x :: is)) v = None).
    { cbn [map]. destruct (map VNum is); reflexivity. }
    rewrite R. unfold rd. cbn [nth_error bind].
    destruct ((- n <=? x) && (x <? n)); destruct v; try reflexivity; cbn [length]; destruct (S (length is) =? S (length sh))%nat; reflexivity. }
  unfold rd. cbn [nth_error bind]. rewrite descend_shift.
  destruct ((- n <=? x) && (x <? n)) eqn:E.
  2:{ assert (R : py_sets assign h (VArr (View b o (n :: sh) (s :: st))) (map VNum (x :: is)) v = None).
      { cbn [map]. destruct (map VNum is); cbn [py_sets py_set py_get part v_shape v_strides]; rewrite E; reflexivity. }
      rewrite R. destruct v; try reflexivity. cbn [length]. destruct (S (length is) =? S (length sh))%nat; reflexivity. }
  rewrite (correction_mod _ _ E), (Z.mul_comm s). cbn [length skipn].
  change (S (length is) =? S (length sh))%nat with (length is =? length sh)%nat.
  destruct is as [|y is].
  - cbn [map py_sets py_set descend bind length skipn]. unfold part. cbn [v_shape v_strides v_buf v_off]. rewrite E.
    cbn [v_buf v_off v_shape v_strides].
    destruct v as [|z| | | |]; try apply helper_ok.
    specialize (HV z eq_refl). destruct sh; [|discriminate]. cbn [length Nat.eqb fill]. apply store_ok.
  - set (w' := View b (o + x mod n * s) sh st).
    assert (IH' : ok (nd_fused_set_item assign h w' (y :: is) v) = py_sets assign h (VArr w') (map VNum (y :: is)) v).
    { apply IH; [discriminate|]. intros z Hz. specialize (HV z Hz). cbn [length] in *. cbn [v_shape w']. lia. }
    unfold nd_fused_set_item in IH'. cbv zeta in IH'. cbn [v_shape v_strides v_off v_buf w'] in IH'.
    cbn [map]. rewrite py_sets_cons2. cbn [py_get]. unfold part. cbn [v_shape v_strides v_buf v_off]. rewrite E.
    cbn [v_buf v_off v_shape]. fold w'.
    destruct sh as [|m sh].
    + assert (R : match option_map VNum (cell h b (o + x mod n * s)) with
                  | Some y0 => py_sets assign h y0 (VNum y :: map VNum is) v | None => None end = None).
      { destruct (cell h b (o + x mod n * s)); [|reflexivity]. cbn [option_map].
        destruct (map VNum is); reflexivity. }
      rewrite R. destruct v; reflexivity.
    + exact IH'.
Qed.

Lemma py_sets_num assign h z ks v : py_sets assign h (VNum z) ks v = None.
Proof. destruct ks as [|k [|k' ks]]; destruct k || idtac; reflexivity. Qed.

Lemma not_int_set assign h v : forall ks w, mapM as_int ks = Exn TypeError -> py_sets assign h (VArr w) ks v = None.
Proof.
  induction ks as [|k ks IH]; intros w H; [reflexivity|].
  cbn [mapM] in H. destruct k as [|i| | | |]; try (destruct ks; reflexivity). cbn [as_int bind] in H.
  assert (H2 : mapM as_int ks = Exn TypeError) by (destruct (mapM as_int ks); cbn [bind] in H; congruence).
  destruct ks as [|k' ks]; [discriminate|]. rewrite py_sets_cons2.
  cbn [py_get]. destruct (part w i) as [w'|]; [|reflexivity].
  destruct (v_shape w').
  - destruct (cell h (v_buf w') (v_off w')); [|reflexivity]. apply py_sets_num.
  - apply IH. exact H2.
Qed.

(** How many axes are left. *)
Lemma gets_axes h : forall is w w', py_gets h (VArr w) (map VNum is) = Some (VArr w') ->
  (length (v_shape w) = length is + length (v_shape w'))%nat.
Proof.
  induction is as [|i is IH]; intros w w' H.
  - cbn in H. injection H as <-. reflexivity.
  - cbn [map py_gets py_get] in H. unfold part in H. destruct w as [b o [|n sh] [|s st]]; try discriminate.
    cbn [v_shape v_strides v_buf v_off] in H. destruct (_ && _); [|discriminate]. cbn [v_shape v_buf v_off] in H.
    destruct sh as [|m sh].
    + destruct (cell h b (o + i mod n * s)); [|discriminate]. cbn [option_map] in H.
      destruct is; [discriminate|discriminate].
    + apply IH in H. cbn [v_shape length] in *. lia.
Qed.

Lemma removelast_map {A B} (f : A -> B) l : removelast (map f l) = map f (removelast l).
Proof. induction l as [|x [|y l] IH]; [reflexivity|reflexivity|]. cbn [map removelast] in *. rewrite <- IH. reflexivity. Qed.
Lemma removelast_length {A} (l : list A) : length (removelast l) = (length l - 1)%nat.
Proof. induction l as [|x [|y l] IH]; [reflexivity|reflexivity|]. cbn [removelast length] in *. rewrite IH. lia. Qed.

Lemma gets_not_num h z v' : forall is x, (exists w, x = VArr w) \/ (exists u, x = VNum u) ->
  py_gets h x (map VNum is) = Some v' -> (exists w, v' = VArr w) \/ v' = VNum z \/ exists u, v' = VNum u.
Proof.
  induction is as [|i is IH]; intros x X H.
  - cbn in H. injection H as <-. destruct X as [[w ->]|[u ->]]; [left; eauto|right; right; eauto].
  - destruct X as [[w ->]|[u ->]]; [|discriminate]. cbn [map py_gets py_get] in H.
    destruct (part w i) as [w'|]; [|discriminate].
    destruct (v_shape w').
    + destruct (cell h (v_buf w') (v_off w')); [|discriminate]. cbn [option_map] in H. eapply IH; [|exact H]. right; eauto.
    + eapply IH; [|exact H]. left; eauto.
Qed.

Lemma fused_setitem_ok assign h x ks v : ks <> [] ->
  (forall h', fused_setitem assign h x ks v = Ok h' -> py_sets assign h x ks v = Some h') /\
  (~ broadcast h x ks v -> ok (fused_setitem assign h x ks v) = py_sets assign h x ks v).
Proof.
  intros N.
  assert (OTHER : (forall w, x <> VArr w) ->
    (forall h', fused_setitem assign h x ks v = Ok h' -> py_sets assign h x ks v = Some h') /\
    (~ broadcast h x ks v -> ok (fused_setitem assign h x ks v) = py_sets assign h x ks v)).
  { intros NA. destruct (exists_last N) as (init & k & ->).
    assert (E : fused_setitem assign h x (init ++ [k]) v =
      let! o := getitems h x init in kernel_setitem assign h o k v).
    { unfold fused_setitem. destruct x; try (exfalso; eapply NA; reflexivity);
      (destruct init as [|k0 init]; [reflexivity|]); cbn [app];
      rewrite app_comm_cons, app_length; cbn [length];
      (replace (1 <? S (length init) + 1)%nat with true by (symmetry; apply Nat.ltb_lt; lia));
      (replace (S (length init) + 1 - 1)%nat with (length (k0 :: init) + 0)%nat by (cbn; lia));
      rewrite firstn_app_2, firstn_O, app_nil_r; unfold rd;
      rewrite nth_error_app2 by lia; rewrite Nat.add_0_r, Nat.sub_diag; reflexivity. }
    rewrite E, py_sets_last. pose proof (getitems_ok h init x) as G.
    destruct (getitems h x init) as [y| | |]; cbn [bind ok] in *; rewrite <- G; [|split; [discriminate|reflexivity]..].
    destruct (kernel_setitem_ok assign h y k v) as [S1 S2]. split; [exact S1|]. intros HB. apply S2. intros (z & w & -> & B & L).
    apply HB. exists z, w. cbn [removelast py_gets] in B. rewrite removelast_last, <- G. repeat split; assumption. }
  destruct x as [| | | | |w]; try (apply OTHER; discriminate). clear OTHER.
  cbn [fused_setitem]. destruct (mapM_int ks) as [(is & E & ->)|E]; rewrite E; cbn [bind].
  2:{ rewrite not_int_set by exact E. split; [discriminate|reflexivity]. }
  assert (Ni : is <> []) by (intros ->; apply N; reflexivity).
  split.
  - intros h' H. rewrite <- fused_set_ok; [rewrite H; reflexivity|exact Ni|].
    intros z ->. unfold nd_fused_set_item in H. cbv zeta in H.
    destruct (Nat.eqb_spec (length is) (length (v_shape w))); [assumption|discriminate].
  - intros HB. destruct v as [|z| | | |]; try (apply fused_set_ok; [exact Ni|discriminate]).
    destruct (Nat.eq_dec (length is) (length (v_shape w))) as [L|L].
    { apply fused_set_ok; [exact Ni|]. intros _ _. exact L. }
    unfold nd_fused_set_item. cbv zeta. destruct (Nat.eqb_spec (length is) (length (v_shape w))); [contradiction|].
    cbn [ok]. symmetry. destruct (exists_last Ni) as (init & i & ->).
    rewrite map_app. cbn [map]. rewrite py_sets_last.
    destruct (py_gets h (VArr w) (map VNum init)) as [y|] eqn:G; [|reflexivity].
    destruct (gets_not_num h 0 y init (VArr w) (or_introl (ex_intro _ w eq_refl)) G) as [[w' ->]|[-> |[u ->]]];
      [|reflexivity|reflexivity].
    exfalso. apply HB. exists z, w'. split; [reflexivity|]. rewrite map_app. cbn [map]. rewrite removelast_last.
    split; [exact G|]. pose proof (gets_axes h init w w' G). rewrite app_length in L. cbn [length] in L. lia.
Qed.

(** ** Expressions *)

Lemma run_expr_py : forall e h, py_eval e h = (fst (run_expr e h), ok (snd (run_expr e h))).
Proof.
  induction e as [c|e IHe k IHk]; intros h.
  - cbn [py_eval run_expr]. destruct (c h) as [h' [v|]]; reflexivity.
  - cbn [py_eval run_expr]. rewrite IHe. destruct (run_expr e h) as [h1 [x| | |]]; cbn [fst snd ok]; try reflexivity.
    rewrite IHk. destruct (run_expr k h1) as [h2 [kv| | |]]; cbn [fst snd ok]; try reflexivity.
    rewrite kernel_getitem_ok. reflexivity.
Qed.

Definition chain (self : expr) (ks : list expr) : expr := fold_left EGet ks self.

Lemma flat_chain : forall e keys, exists c l, flat e keys = (EAny c, keys ++ rev l) /\ e = chain (EAny c) l.
Proof.
  induction e as [c|e IH k _]; intros keys.
  - exists c, []. cbn. rewrite app_nil_r. split; reflexivity.
  - cbn [flat]. destruct (IH (keys ++ [k])) as (c & l & -> & ->). exists c, (l ++ [k]).
    unfold chain. rewrite fold_left_app, rev_app_distr, <- app_assoc. split; reflexivity.
Qed.

(** The values of keys that do not change the heap. *)
Fixpoint values (ks : list expr) (h : heap) : option (list val) :=
  match ks with
  | [] => Some []
  | k :: ks =>
      match snd (py_eval k h), values ks h with
      | Some v, Some vs => Some (v :: vs)
      | _, _ => None
      end
  end.

Lemma pure_run e h : pure e -> fst (run_expr e h) = h.
Proof. intros P. specialize (P h). rewrite run_expr_py in P. exact P. Qed.

Lemma run_list_pure : forall ks h, Forall pure ks -> fst (run_list ks h) = h /\ ok (snd (run_list ks h)) = values ks h.
Proof.
  induction ks as [|k ks IH]; intros h F; [split; reflexivity|].
  inversion F as [|? ? Pk Fk]; subst. cbn [run_list values]. rewrite (run_expr_py k h). cbn [snd].
  pose proof (pure_run k h Pk) as E. destruct (run_expr k h) as [h' r]. cbn [fst] in E. subst h'. cbn [snd].
  destruct (IH h Fk) as [I1 I2].
  destruct r as [v| | |]; cbn [ok]; try (split; reflexivity).
  destruct (run_list ks h) as [h2 r2]. cbn [fst snd] in *. subst h2. rewrite <- I2.
  destruct r2; split; reflexivity.
Qed.

(** Subscripts one after the other with keys that do not change the heap. *)
Fixpoint py_chain (x : val) (ks : list expr) (h : heap) : heap * option val :=
  match ks with
  | [] => (h, Some x)
  | k :: ks =>
      match py_eval k h with
      | (h, Some kv) => match py_get h x kv with Some y => py_chain y ks h | None => (h, None) end
      | (h, None) => (h, None)
      end
  end.

Lemma py_eval_chain : forall ks e h,
  py_eval (chain e ks) h =
    match py_eval e h with (h, Some x) => py_chain x ks h | (h, None) => (h, None) end.
Proof.
  induction ks as [|k ks IH]; intros e h.
  - cbn. destruct (py_eval e h) as [h' [x|]]; reflexivity.
  - cbn [chain fold_left]. fold (chain (EGet e k) ks). rewrite IH. cbn [py_eval py_chain].
    destruct (py_eval e h) as [h1 [x|]]; [|reflexivity].
    destruct (py_eval k h1) as [h2 [kv|]]; [|reflexivity].
    destruct (py_get h2 x kv); reflexivity.
Qed.

Lemma py_chain_pure : forall ks x h, Forall pure ks ->
  py_chain x ks h = (h, match values ks h with Some vs => py_gets h x vs | None => None end) \/
  (values ks h = None /\ py_chain x ks h = (h, None)).
Proof.
  induction ks as [|k ks IH]; intros x h F; [left; reflexivity|].
  inversion F as [|? ? Pk Fk]; subst. cbn [py_chain values]. specialize (Pk h).
  destruct (py_eval k h) as [h' [kv|]]; cbn [fst snd] in *; subst h'; [|left; reflexivity].
  destruct (values ks h) as [vs|] eqn:V.
  - cbn [py_gets]. destruct (py_get h x kv) as [y|]; [|left; reflexivity].
    destruct (IH y h Fk) as [-> |[? ?]]; [|congruence]. rewrite V. left. reflexivity.
  - right. split; [reflexivity|]. destruct (py_get h x kv) as [y|]; [|reflexivity].
    destruct (IH y h Fk) as [-> |[_ ->]]; [rewrite V|]; reflexivity.
Qed.
Lemma py_chain_values ks x h : Forall pure ks ->
  py_chain x ks h = (h, match values ks h with Some vs => py_gets h x vs | None => None end).
Proof. intros F. destruct (py_chain_pure ks x h F) as [H|[V H]]; [exact H|]. rewrite V. exact H. Qed.

Lemma chain_snoc e l k : EGet (chain e l) k = chain e (l ++ [k]).
Proof. unfold chain. rewrite fold_left_app. reflexivity. Qed.

Lemma later_keys c : forall l k, later_keys_pure (chain (EAny c) (k :: l)) -> Forall pure l.
Proof.
  induction l as [|x l IH] using rev_ind; intros k H; [constructor|].
  change (k :: l ++ [x]) with ((k :: l) ++ [x]) in H. rewrite <- chain_snoc in H.
  assert (E : exists e k0, chain (EAny c) (k :: l) = EGet e k0).
  { destruct (exists_last (l := k :: l) ltac:(discriminate)) as (i & y & ->). rewrite <- chain_snoc. eauto. }
  destruct E as (e & k0 & E). rewrite E in H. change (later_keys_pure (EGet e k0) /\ pure x) in H. destruct H as [H P].
  apply Forall_app. split; [|constructor; [exact P|constructor]]. rewrite <- E in H. exact (IH k H).
Qed.

Lemma chain_keys c : forall l, chain_pure (chain (EAny c) l) -> pure (EAny c) /\ Forall pure l.
Proof.
  induction l as [|x l IH] using rev_ind; intros H; [split; [exact H|constructor]|].
  rewrite <- chain_snoc in H. destruct H as [H P]. destruct (IH H). split; [assumption|].
  apply Forall_app. split; [assumption|constructor; [exact P|constructor]].
Qed.

Lemma run_get_ok e k h : later_keys_pure (EGet e k) ->
  py_eval (EGet e k) h = (fst (run_get e k h), ok (snd (run_get e k h))).
Proof.
  intros P. unfold run_get. destruct (flat_chain e [k]) as (c & l & -> & ->). cbv zeta.
  rewrite rev_app_distr, rev_involutive. cbn [rev app]. rewrite chain_snoc in *.
  destruct (l ++ [k]) as [|k0 ks] eqn:EL; [destruct l; discriminate|]. apply later_keys in P.
  rewrite py_eval_chain, run_expr_py. destruct (run_expr (EAny c) h) as [h1 [x| | |]]; cbn [fst snd ok]; try reflexivity.
  cbn [py_chain run_list]. rewrite run_expr_py.
  destruct (run_expr k0 h1) as [h2 [kv| | |]]; cbn [fst snd ok]; try reflexivity.
  destruct (run_list_pure ks h2 P) as [R1 R2].
  assert (PC : forall y, py_chain y ks h2 = (h2, match values ks h2 with Some vs => py_gets h2 y vs | None => None end))
    by (intros y; apply py_chain_values; exact P).
  destruct (run_list ks h2) as [h3 r]. cbn [fst snd] in *. subst h3.
  destruct r as [vs| | |]; cbn [rmap ok] in *; rewrite <- R2 in PC; cbn [fst snd ok].
  - rewrite fused_getitem_ok by discriminate. cbn [py_gets]. destruct (py_get h2 x kv); [apply PC|reflexivity].
  - destruct (py_get h2 x kv); [apply PC|reflexivity].
  - destruct (py_get h2 x kv); [apply PC|reflexivity].
  - destruct (py_get h2 x kv); [apply PC|reflexivity].
Qed.

Lemma values_snoc k h : forall l, values (l ++ [k]) h =
  match values l h, snd (py_eval k h) with Some vs, Some v => Some (vs ++ [v]) | _, _ => None end.
Proof.
  induction l as [|x l IH]; cbn [app values].
  - destruct (snd (py_eval k h)); reflexivity.
  - rewrite IH. destruct (snd (py_eval x h)); [|reflexivity].
    destruct (values l h), (snd (py_eval k h)); reflexivity.
Qed.

Lemma run_set_ok assign e k v h : chain_pure (EGet e k) -> pure v ->
  (forall h', run_set assign e k v h = (h', Ok tt) -> py_assign assign e k v h = (h', true)) /\
  (forall h', (forall z w, snd (py_eval v h) = Some (VNum z) -> snd (py_eval e h) = Some (VArr w) -> length (v_shape w) = 1%nat) ->
    py_assign assign e k v h = (h', true) -> run_set assign e k v h = (h', Ok tt)) /\
  (snd (run_set assign e k v h) <> Ok tt -> fst (run_set assign e k v h) = h).
Proof.
  intros P Pv. unfold run_set. destruct (flat_chain e [k]) as (c & l & -> & ->). cbv zeta.
  rewrite rev_app_distr, rev_involutive. cbn [rev app]. rewrite chain_snoc in P.
  apply chain_keys in P. destruct P as [Pc Pl]. pose proof Pl as Pl2. apply Forall_app in Pl2. destruct Pl2 as [Pi Pk].
  inversion Pk as [|? ? Pk' _]; subst. clear Pk.
  assert (PY : py_assign assign (chain (EAny c) l) k v h =
    match snd (py_eval v h), snd (py_eval (EAny c) h), values (l ++ [k]) h with
    | Some vv, Some x, Some ks => match py_sets assign h x ks vv with Some h' => (h', true) | None => (h, false) end
    | _, _, _ => (h, false)
    end).
  { unfold py_assign. pose proof (Pv h) as E. destruct (py_eval v h) as [h1 [vv|]]; cbn [fst snd] in *; subst h1; [|reflexivity].
    rewrite py_eval_chain. pose proof (Pc h) as E. destruct (py_eval (EAny c) h) as [h1 [x|]]; cbn [fst snd] in *; subst h1; [|reflexivity].
    rewrite py_chain_values by exact Pi. rewrite values_snoc. destruct (values l h) as [vs|]; [|reflexivity].
    pose proof (Pk' h) as E. destruct (py_eval k h) as [h1 [kv|]] eqn:EK; cbn [fst snd] in *; subst h1.
    - rewrite py_sets_last. destruct (py_gets h x vs) as [y|]; reflexivity.
    - destruct (py_gets h x vs) as [y|]; reflexivity. }
  rewrite PY. clear PY.
  assert (PE : snd (py_eval (chain (EAny c) l) h) =
    match snd (py_eval (EAny c) h), values l h with Some x, Some vs => py_gets h x vs | _, _ => None end).
  { rewrite py_eval_chain. pose proof (Pc h) as E. destruct (py_eval (EAny c) h) as [h1 [x|]]; cbn [fst snd] in *; subst h1; [|reflexivity].
    rewrite py_chain_values by exact Pi. reflexivity. }
  rewrite PE. clear PE. pose proof (values_snoc k h l) as VS.
  pose proof (pure_run (EAny c) h Pc) as E1. rewrite !(run_expr_py (EAny c) h). cbn [snd].
  destruct (run_expr (EAny c) h) as [h1 r1]. cbn [fst snd] in *. subst h1.
  destruct (run_list_pure (l ++ [k]) h Pl) as [R1 R2]. destruct (run_list (l ++ [k]) h) as [h1 r2]. cbn [fst snd] in *. subst h1.
  rewrite <- R2 in *. clear R2.
  pose proof (pure_run v h Pv) as E3. rewrite !(run_expr_py v h). cbn [snd].
  destruct (run_expr v h) as [h1 r3]. cbn [fst snd] in *. subst h1.
  assert (BAD : forall (e' : res unit), e' <> Ok tt ->
    (forall h' : heap, (h, e') = (h', Ok tt) -> (h, false) = (h', true)) /\
    (forall h' : heap, (h, false) = (h', true) -> (h, e') = (h', Ok tt)) /\
    (snd (h, e') <> Ok tt -> fst (h, e') = h)).
  { intros e' NE. repeat split; intros; congruence. }
  destruct r1 as [x| | |]; cbn [ok];
    [|destruct (ok r3); (split; [|split]); intros; cbn [fst snd] in *; try congruence..].
  destruct r2 as [ks| | |]; cbn [ok] in *;
    [|destruct (ok r3); (split; [|split]); intros; cbn [fst snd] in *; try congruence..].
  destruct r3 as [vv| | |]; cbn [ok];
    [|(split; [|split]); intros; cbn [fst snd] in *; try congruence..].
  assert (Nk : ks <> []).
  { intros ->. destruct (values l h) as [[|]|], (snd (py_eval k h)); discriminate. }
  destruct (fused_setitem_ok assign h x ks vv Nk) as [S1 S2].
  split; [|split].
  - intros h' H. destruct (fused_setitem assign h x ks vv) as [h2| | |] eqn:F; try discriminate.
    injection H as ->. rewrite (S1 h' eq_refl). reflexivity.
  - intros h' HB H. assert (NB : ~ broadcast h x ks vv).
    { intros (z & w & -> & G & L). apply L. apply (HB z w eq_refl).
      destruct (values l h) as [vs|]; [|discriminate]. destruct (snd (py_eval k h)); [|discriminate].
      injection VS as ->. rewrite removelast_last in G. exact G. }
    specialize (S2 NB). destruct (py_sets assign h x ks vv) as [h2|]; [|discriminate]. injection H as ->.
    destruct (fused_setitem assign h x ks vv); cbn [ok] in S2; try discriminate. injection S2 as ->. reflexivity.
  - destruct (fused_setitem assign h x ks vv); cbn [fst snd]; intros; congruence.
Qed.

(** ** Memory *)

Lemma descend_inside h b : forall is sh st o i p,
  inside h b o sh st -> (length is <= length sh)%nat -> i = O -> o = p ->
  descend sh st i p is <> OOB /\
  (forall q, descend sh st i p is = Ok q -> inside h b q (skipn (length is) sh) (skipn (length is) st)).
Proof.
  induction is as [|x is IH]; intros sh st o i p H L -> ->.
  - split; [discriminate|]. intros q E. injection E as <-. exact H.
  - destruct sh as [|n sh]; [cbn in L; lia|]. destruct st as [|s st]; [contradiction|].
    cbn [descend]. unfold rd. cbn [nth_error bind]. cbv zeta.
    destruct (_ && _) eqn:E; [|split; discriminate]. rewrite descend_shift. cbn [length skipn].
    apply (IH sh st (p + index_correction x n * s)); [|cbn in L; lia|reflexivity|lia].
    apply H. lia.
Qed.

Lemma fused_inside h w ks : inside h (v_buf w) (v_off w) (v_shape w) (v_strides w) ->
  fused_getitem h (VArr w) ks <> OOB.
Proof.
  intros H. cbn [fused_getitem]. destruct (mapM_int ks) as [(is & E & ->)|E]; rewrite E; cbn [bind]; [|discriminate].
  unfold nd_fused_get_item. cbv zeta. destruct (Nat.leb_spec (length is) (length (v_shape w))) as [L|L]; [|discriminate].
  destruct (descend_inside h (v_buf w) is (v_shape w) (v_strides w) (v_off w) 0 (v_off w) H L eq_refl eq_refl) as [D1 D2].
  destruct (descend (v_shape w) (v_strides w) 0 (v_off w) is) as [q| | |]; cbn [bind]; try discriminate; [|contradiction].
  destruct (Nat.eqb_spec (length (v_shape w)) (length is)) as [EL|EL]; [|discriminate].
  specialize (D2 q eq_refl). rewrite <- EL, skipn_all in D2.
  assert (LD : load h (v_buf w) q <> OOB).
  { pose proof (load_ok h (v_buf w) q) as LO. intros X. rewrite X in LO. cbn in LO.
    cbn [inside] in D2. destruct (skipn (length (v_shape w)) (v_strides w)); [|contradiction]. congruence. }
  destruct (load h (v_buf w) q); try discriminate. contradiction.
Qed.
