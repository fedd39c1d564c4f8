(** Proofs about the msgpack model: more bytes or a deeper recursion bound do not change what
    has already been decided. *)
From Verif Require Import Base Utf8Model MsgModel MsgSpec MsgProofs MsgSafe.
Ltac Zify.zify_post_hook ::= Z.to_euclidean_division_equations.

(** [stable r r']: if [r] is a value or an exception, [r'] is the same. *)
Definition stable {A} (r r' : res A) : Prop := r = OOB \/ r = OutOfFuel \/ r' = r.
Lemma stable_refl {A} (r : res A) : stable r r. Proof. right; right; reflexivity. Qed.
Lemma stable_bind {A B} (r r' : res A) (k k' : A -> res B) :
  stable r r' -> (forall x, r = Ok x -> stable (k x) (k' x)) -> stable (bind r k) (bind r' k').
Proof.
  intros [->|[->| ->]] H; [left; reflexivity|right; left; reflexivity|].
  destruct r; cbn [bind]; auto; right; right; reflexivity.
Qed.
Lemma stable_if {A} (b : bool) (x x' y y' : res A) :
  (b = true -> stable x x') -> (b = false -> stable y y') ->
  stable (if b then x else y) (if b then x' else y').
Proof. destruct b; auto. Qed.

Lemma load_more k e : forall p, stable (load k p) (load k (p ++ e)).
Proof.
  induction k; intros p; cbn [load]; [apply stable_refl|].
  destruct p as [|b p]; [left; reflexivity|]. unfold rd. cbn [app nth_error bind tl].
  apply stable_bind; [apply IHk|intros; apply stable_refl].
Qed.
Lemma load_le_more k e : forall p, stable (load_le k p) (load_le k (p ++ e)).
Proof.
  induction k; intros p; cbn [load_le]; [apply stable_refl|].
  destruct p as [|b p]; [left; reflexivity|]. unfold rd. cbn [app nth_error bind tl].
  apply stable_bind; [apply IHk|intros; apply stable_refl].
Qed.
Lemma load_le_len k : forall p x, load_le k p = Ok x -> Z.of_nat k <= zlen p.
Proof.
  induction k; intros p x H; [pose proof (zlen_nonneg p); lia|]. cbn [load_le] in H.
  destruct p as [|b p]; [discriminate|]. unfold rd in H. cbn [nth_error bind tl] in H.
  destruct (load_le k p) eqn:E; try discriminate. apply IHk in E. rewrite zlen_cons. lia.
Qed.
Lemma load_len k : forall p x, load k p = Ok x -> Z.of_nat k <= zlen p.
Proof.
  induction k; intros p x H; [pose proof (zlen_nonneg p); lia|]. cbn [load] in H.
  destruct p as [|b p]; [discriminate|]. unfold rd in H. cbn [nth_error bind tl] in H.
  destruct (load k p) eqn:E; try discriminate. apply IHk in E. rewrite zlen_cons. lia.
Qed.
Lemma load_le_short k : forall p, zlen p < Z.of_nat k -> load_le k p = OOB.
Proof.
  induction k; intros p H; [pose proof (zlen_nonneg p); lia|]. cbn [load_le].
  destruct p as [|b p]; [reflexivity|]. unfold rd. cbn [nth_error bind tl].
  rewrite zlen_cons in H. rewrite IHk by lia. reflexivity.
Qed.
Lemma advance_more p e n : n <= zlen p -> advance (p ++ e) n = advance p n ++ e.
Proof.
  intros H. unfold advance, zlen in *. rewrite skipn_app.
  replace (Z.to_nat n - length p)%nat with 0%nat by lia. reflexivity.
Qed.
Lemma slice_more p e n : stable (slice p n) (slice (p ++ e) n).
Proof.
  unfold slice. destruct (n <=? zlen p) eqn:E; [|left; reflexivity]. right; right.
  rewrite zlen_app. pose proof (zlen_nonneg e). replace (n <=? zlen p + zlen e) with true by lia.
  f_equal. rewrite firstn_app. unfold zlen in E.
  replace (Z.to_nat n - length p)%nat with 0%nat by lia. rewrite firstn_O, app_nil_r. reflexivity.
Qed.
Lemma shapes_more n e : forall p, match load_shapes n p with
  | Ok (l, r) => load_shapes n (p ++ e) = Ok (l, r ++ e)
  | Exn x => False
  | _ => True end.
Proof.
  induction n; intros p; cbn [load_shapes]; [reflexivity|].
  pose proof (load_le_more 8 e p) as H. destruct (load_le 8 p) as [x| | |] eqn:E; cbn [bind]; auto.
  - destruct H as [H|[H|H]]; try discriminate. rewrite H. cbn [bind].
    apply load_le_len in E. rewrite advance_more by lia.
    specialize (IHn (advance p 8)). destruct (load_shapes n (advance p 8)) as [[l r]| | |]; cbn [bind]; auto.
    rewrite IHn. reflexivity.
  - assert (HX : forall k q, load_le k q <> Exn e0); [|apply (HX _ _ E)]. clear.
    induction k; intros q; cbn [load_le]; [discriminate|]. unfold rd. destruct q; cbn [nth_error bind tl]; [discriminate|].
    specialize (IHk q). destruct (load_le k q); cbn [bind]; congruence.
Qed.
Lemma rd_more {A} (p e : list A) i : stable (rd p i) (rd (p ++ e) i).
Proof.
  unfold rd. destruct (nth_error p i) eqn:E; [|left; reflexivity].
  rewrite nth_error_app1 by (apply nth_error_Some; congruence). rewrite E. apply stable_refl.
Qed.

Lemma nd_more p e n : stable (unpack_nd p n) (unpack_nd (p ++ e) n).
Proof.
  unfold unpack_nd. apply stable_if; intros E1; [apply stable_refl|].
  apply stable_bind; [apply rd_more|]. intros code _. apply stable_bind; [apply rd_more|]. intros bits _.
  destruct (Z.ltb_spec (zlen p) 8) as [Hs|Hn].
  { left. rewrite (load_le_short 4 (advance p 4)) by (unfold advance, zlen in *; rewrite skipn_length; lia).
    destruct (Z.ltb_spec (zlen p) 4) as [Hs'|Hn'].
    - rewrite load_le_short by (unfold advance, zlen in *; rewrite skipn_length; lia). reflexivity.
    - destruct (load_le_in 2 (advance p 2)) as [x ->]; [|reflexivity].
      unfold advance, zlen in *; rewrite skipn_length; lia. }
  rewrite !advance_more by lia.
  apply stable_bind; [apply load_le_more|]. intros lanes _.
  apply stable_bind; [apply load_le_more|]. intros nd _. cbv zeta.
  apply stable_if; intros E2; [apply stable_refl|].
  apply stable_if; intros E3; [apply stable_refl|].
  pose proof (shapes_more (Z.to_nat (sext 32 nd)) e (advance p 8)) as HS.
  destruct (load_shapes (Z.to_nat (sext 32 nd)) (advance p 8)) as [[l r]| | |]; cbn [bind];
    [rewrite HS; cbn [bind fst snd]|contradiction|left; reflexivity|right; left; reflexivity].
  apply stable_if; intros E4; [apply stable_refl|].
  apply stable_if; intros E5; [apply stable_refl|].
  apply stable_bind; [apply slice_more|]. intros; apply stable_refl.
Qed.
Lemma ts_more p e n : stable (unpack_timestamp p n) (unpack_timestamp (p ++ e) n).
Proof.
  unfold unpack_timestamp.
  repeat (apply stable_if; intros ?); try apply stable_refl;
    (apply stable_bind; [apply load_more|intros x Hx]); try apply stable_refl.
  apply load_len in Hx. rewrite advance_more by lia.
  apply stable_bind; [apply load_more|intros]; apply stable_refl.
Qed.

(** The item with [e] appended to what it leaves unread. *)
Definition shift (e : list Z) (it : item) : item :=
  match it with
  | IVal v r => IVal v (r ++ e)
  | IArray n r => IArray n (r ++ e)
  | IMap n r => IMap n (r ++ e)
  | IEnd z => IEnd z
  end.
(** [later e r r']: [r'] is what [r] becomes with [e] appended to the input. *)
Definition later (e : list Z) (r r' : res item) : Prop :=
  r = OOB \/ r = OutOfFuel \/ (r = Ok (IEnd 0) /\ e <> []) \/ r' = rmap (shift e) r.
Lemma later_ok e it : later e (Ok it) (Ok (shift e it)).
Proof. right; right; right; reflexivity. Qed.
Lemma later_bind {A} e (r r' : res A) k k' :
  stable r r' -> (forall x, r = Ok x -> later e (k x) (k' x)) -> later e (bind r k) (bind r' k').
Proof.
  intros [->|[->| ->]] H; [left; reflexivity|right; left; reflexivity|].
  destruct r; cbn [bind]; auto.
  - right; right; right; reflexivity.
  - left; reflexivity.
  - right; left; reflexivity.
Qed.
Lemma later_if e (b : bool) x x' y y' :
  (b = true -> later e x x') -> (b = false -> later e y y') ->
  later e (if b then x else y) (if b then x' else y').
Proof. destruct b; auto. Qed.
Lemma later_short e p n k k' : (n <= zlen p -> later e k k') ->
  later e (if zlen p <? n then Ok (IEnd 0) else k) (if zlen (p ++ e) <? n then Ok (IEnd 0) else k').
Proof.
  intros H. destruct (zlen p <? n) eqn:E.
  - destruct e as [|b e]; [rewrite app_nil_r, E; apply later_ok|].
    right; right; left. split; [reflexivity|discriminate].
  - rewrite zlen_app. pose proof (zlen_nonneg e).
    replace (zlen p + zlen e <? n) with false by lia. apply H. lia.
Qed.

Section Prefix.
Variable keq : value -> value -> bool.
Variable ts_double : Z -> Z -> Z.
Variable widen : Z -> Z.

Section Body.
Variables rec rec' : list Z -> bool -> res value.
Hypothesis REC : forall s u, stable (rec s u) (rec' s u).
Variable e : list Z.

Lemma raw_later n0 p n : later e (raw_trail n0 p n) (raw_trail (n0 ++ e) (p ++ e) n).
Proof.
  unfold raw_trail, raw_value. apply later_if; intros E.
  - apply later_bind; [apply slice_more|]. intros s _. apply later_bind; [apply stable_refl|].
    intros; apply (later_ok e (IVal _ _)).
  - apply later_short. intros HL. apply later_bind; [apply slice_more|]. intros s _.
    apply later_bind; [apply stable_refl|]. intros. rewrite advance_more by lia. apply (later_ok e (IVal _ _)).
Qed.
Lemma bin_later n0 p n : later e (bin_trail n0 p n) (bin_trail (n0 ++ e) (p ++ e) n).
Proof.
  unfold bin_trail, bin_value. apply later_if; intros E.
  - apply later_bind; [apply slice_more|]. intros s _. apply (later_ok e (IVal _ _)).
  - apply later_short. intros HL. apply later_bind; [apply slice_more|]. intros s _.
    rewrite advance_more by lia. apply (later_ok e (IVal _ _)).
Qed.
Lemma hook_stable tc p n : stable (ext_hook keq rec tc p n) (ext_hook keq rec' tc (p ++ e) n).
Proof.
  unfold ext_hook. apply stable_if; intros E1; [|apply stable_if; intros E2; [apply nd_more|apply stable_refl]].
  apply stable_bind; [apply slice_more|]. intros s _. apply stable_bind; [apply REC|]. intros v _. apply stable_refl.
Qed.
Lemma ext_value_later obj n trail p :
  later e (ext_value keq ts_double rec obj n trail p) (ext_value keq ts_double rec' obj (n ++ e) trail (p ++ e)).
Proof.
  unfold ext_value. destruct n as [|b n]; [left; reflexivity|]. unfold rd. cbn [app nth_error bind tl].
  apply later_if; intros _.
  - apply later_bind; [apply ts_more|]. intros [[s ns]|] _; [|apply (later_ok e (IEnd _))].
    apply later_bind; [apply stable_refl|]. intros o _. apply (later_ok e (IVal _ _)).
  - apply later_bind; [apply hook_stable|]. intros o _. apply (later_ok e (IVal _ _)).
Qed.
Lemma ext_later obj n0 p n :
  later e (ext_trail keq ts_double rec obj n0 p n) (ext_trail keq ts_double rec' obj (n0 ++ e) (p ++ e) n).
Proof.
  unfold ext_trail. apply later_if; intros E; [apply ext_value_later|].
  apply later_short. intros HL. rewrite advance_more by lia. apply ext_value_later.
Qed.
Lemma fixed_later q k K K' : (forall x r, later e (K x r) (K' x (r ++ e))) ->
  later e (fixed_trail q k K) (fixed_trail (q ++ e) k K').
Proof.
  intros H. unfold fixed_trail. apply later_short. intros HL. rewrite advance_more by lia.
  apply later_bind; [apply load_more|]. intros x _. apply H.
Qed.
Lemma header_later b q obj :
  later e (header keq ts_double rec widen (b :: q) obj) (header keq ts_double rec' widen (b :: q ++ e) obj).
Proof.
  unfold header, rd. cbn [app nth_error bind tl].
  repeat first [apply (later_ok e (IVal _ _))|apply (later_ok e (IArray _ _))|apply (later_ok e (IMap _ _))
    |apply (later_ok e (IEnd _))|apply raw_later|apply bin_later|apply ext_later
    |apply fixed_later; intros ? ?|apply later_if; intros _].
Qed.

(** The loop. *)
Definition later_out (r r' : res outcome) : Prop :=
  r = OOB \/ r = OutOfFuel \/ (r = Ok (Ret 0) /\ e <> []) \/
  r' = rmap (fun o => match o with Finish v p => Finish v (p ++ e) | Ret z => Ret z end) r.
Lemma later_out_bind {A} (r : res A) (k k' : A -> res outcome) :
  (forall x, r = Ok x -> later_out (k x) (k' x)) -> later_out (bind r k) (bind r k').
Proof.
  intros H. destruct r; cbn [bind]; auto.
  - right; right; right; reflexivity.
  - left; reflexivity.
  - right; left; reflexivity.
Qed.
Lemma later_out_ret z : later_out (Ok (Ret z)) (Ok (Ret z)).
Proof. right; right; right; reflexivity. Qed.

Lemma run_later ul : forall k p, length p = k -> forall obj stk,
  later_out (run keq ts_double widen rec ul p obj stk) (run keq ts_double widen rec' ul (p ++ e) obj stk).
Proof.
  induction k as [k IH] using lt_wf_ind. intros p Hk obj stk.
  destruct p as [|b q] eqn:EP.
  { destruct e as [|c e'] eqn:EE; [right; right; right; reflexivity|].
    right; right; left. split; [reflexivity|rewrite EE; discriminate]. }
  rewrite run_unfold by discriminate. rewrite run_unfold by discriminate.
  pose proof (header_later b q obj) as HH. cbn [app].
  destruct (header keq ts_double rec widen (b :: q) obj) as [it| | |] eqn:Hit;
    [|destruct HH as [HH|[HH|[[HH _]|HH]]]; try discriminate; rewrite HH; right; right; right; reflexivity
     |left; reflexivity|right; left; reflexivity].
  pose proof (header_progress _ _ _ _ _ _ _ Hit) as [_ HL]. rewrite Hk in HL.
  destruct HH as [HH|[HH|[[HH HE]|HH]]]; try discriminate.
  { apply Ok_inj in HH. subst it. cbn [bind]. right; right; left. auto. }
  rewrite HH. cbn [rmap bind].
  assert (AF : forall v, later_out (after keq ts_double widen rec ul v stk (rest it))
    (after keq ts_double widen rec' ul v stk (rest it ++ e))).
  { intros v. unfold after. apply later_out_bind. intros [w|[o s]] _; [right; right; right; reflexivity|].
    eapply IH; [|reflexivity]. exact HL. }
  destruct it as [v p'|n p'|n p'|r]; cbn [rest shift] in *; [apply AF| | |apply later_out_ret].
  - apply later_out_bind. intros [r|[fr|v]] _; [apply later_out_ret| |apply AF].
    eapply IH; [|reflexivity]. exact HL.
  - apply later_out_bind. intros [r|[fr|v]] _; [apply later_out_ret| |apply AF].
    eapply IH; [|reflexivity]. exact HL.
Qed.
End Body.

(** A deeper bound on the recursion changes nothing but running out of it. *)
Lemma deeper D : forall D' bs ul, (D <= D')%nat ->
  unpackb keq ts_double widen D bs ul = OOB \/
  stable (unpackb keq ts_double widen D bs ul) (unpackb keq ts_double widen D' bs ul).
Proof.
  induction D as [|D IH]; intros D' bs ul HD; [right; right; left; reflexivity|].
  destruct D' as [|D']; [lia|]. cbn [unpackb]. unfold unpackb_body.
  pose proof (run_later (unpackb keq ts_double widen D) (unpackb keq ts_double widen D')) as RL.
  assert (REC : forall s u, stable (unpackb keq ts_double widen D s u) (unpackb keq ts_double widen D' s u)).
  { intros s u. destruct (IH D' s u) as [H|H]; [lia|left; exact H|exact H]. }
  specialize (RL REC [] ul _ bs eq_refl VNil []). rewrite app_nil_r in RL. unfold run in RL.
  destruct RL as [->|[->|[[_ HE]|RL]]]; [left; reflexivity|right; right; left; reflexivity|congruence|].
  rewrite RL. match type of RL with _ = rmap _ ?r => generalize r; clear end.
  intros [[v p|z]| | |]; cbn [rmap bind];
    try (right; apply stable_refl). rewrite app_nil_r. right; apply stable_refl.
Qed.

(** What appending [e <> []] does to the result of [loads]. *)
Lemma loads_app bs e : e <> [] ->
  match loads keq ts_double widen bs with
  | Ok _ => loads keq ts_double widen (bs ++ e) = Exn ExtraData
  | Exn Incomplete => True
  | Exn x => loads keq ts_double widen (bs ++ e) = Exn x
  | _ => True
  end.
Proof.
  intros HE. unfold loads. cbn [unpackb]. unfold unpackb_body.
  pose proof (run_later (unpackb keq ts_double widen (length bs)) (unpackb keq ts_double widen (length (bs ++ e)))) as RL.
  assert (REC : forall s u, stable (unpackb keq ts_double widen (length bs) s u)
     (unpackb keq ts_double widen (length (bs ++ e)) s u)).
  { intros s u. destruct (deeper (length bs) (length (bs ++ e)) s u) as [H|H];
      [rewrite app_length; lia|left; exact H|exact H]. }
  specialize (RL REC e true _ bs eq_refl VNil []). unfold run in RL.
  destruct RL as [->|[->|[[-> _]|RL]]]; [exact I|exact I|exact I|].
  rewrite RL. match type of RL with _ = rmap _ ?r => generalize r; clear - HE end.
  intros [[v p|z]| | |]; cbn [rmap bind]; auto.
  - assert (HX : 0 <? zlen (p ++ e) = true).
    { rewrite zlen_app. destruct e; [congruence|]. rewrite zlen_cons.
      pose proof (zlen_nonneg p). pose proof (zlen_nonneg e). lia. }
    rewrite HX. destruct (0 <? zlen p); reflexivity.
  - destruct (z =? 0) eqn:E0; [exact I|]. destruct (z =? -2); [reflexivity|]. destruct (z =? -3); reflexivity.
  - destruct e0; auto.
Qed.
End Prefix.
