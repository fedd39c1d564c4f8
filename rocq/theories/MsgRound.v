(** Proofs about the msgpack model: packer output is in the grammar, round trip. *)
From Verif Require Import Base Utf8Model MsgModel MsgSpec MsgProofs.
From Verif Require Utf8Proofs Utf8Spec.
Ltac Zify.zify_post_hook ::= Z.to_euclidean_division_equations.

Definition pack_items (lim : Z) : list value -> res (list Z) :=
  fix items v := match v with
                 | [] => Ok []
                 | x :: v' => let! a := pack x lim in
                              let! b := items v' in Ok (a ++ b)
                 end.
Definition pack_pairs (lim : Z) : list (value * value) -> res (list Z) :=
  fix items v := match v with
                 | [] => Ok []
                 | (k, x) :: v' => let! a := pack k lim in
                                   let! b := pack x lim in
                                   let! c := items v' in Ok (a ++ b ++ c)
                 end.

Lemma pack_unfold o lim : pack o lim =
  if lim <? 0 then Exn ValueError else
  match o with
  | VNil => Ok [192]
  | VInt d => Ok (pack_int64 d)
  | VFloat bits => Ok (203 :: be 8 bits)
  | VBytes s =>
      if zlen s >? ITEM_LIMIT then Exn ValueError else Ok (pack_bin (zlen s) ++ s)
  | VStr u =>
      let! bytes := utf8_encode u in
      if zlen bytes >? ITEM_LIMIT then Exn ValueError else Ok (pack_raw (zlen bytes) ++ bytes)
  | VList v | VTuple v =>
      if zlen v >? ITEM_LIMIT then Exn ValueError else
      let! body := pack_items (lim - 1) v in Ok (pack_array (zlen v) ++ body)
  | VDict v =>
      if zlen v >? ITEM_LIMIT then Exn ValueError else
      let! body := pack_pairs (lim - 1) v in Ok (pack_map (zlen v) ++ body)
  | VSet v =>
      if zlen v >? ITEM_LIMIT then Exn ValueError else
      let! body := pack_items (lim - 1) v in
      Ok (pack_ext kRuntimeSet (zlen (pack_array (zlen v) ++ body)) ++ pack_array (zlen v) ++ body)
  | VNd code bits lanes shape data =>
      Ok (pack_ext kRuntimeNDArray (4 + 4 + 8 * zlen shape + nd_size bits lanes shape) ++
          [code; bits] ++ le 2 lanes ++ le 4 (zlen shape) ++ concat (map (le 8) shape) ++ data)
  end.
Proof. destruct o; reflexivity. Qed.

Section Round.
Variable keq : value -> value -> bool.
Variable widen : Z -> Z.
Definition rt_text (u s : list Z) : Prop := utf8_encode u = Ok s /\ utf8_decode s = Ok u.
Notation enc := (enc rt_text widen keq).
Notation enc_list := (enc_list rt_text widen keq).
Notation enc_pairs := (enc_pairs rt_text widen keq).
Notation lv lim := (Z.to_nat (lim + 1)).

(** Values that come back unchanged: read as tuples, or not containing arrays. *)
Definition stays (ul : bool) (v : value) : Prop :=
  if ul then flat_key v else can_hash v.

Lemma scalar_enc ul v lim bs : good keq v -> can_hash v -> (forall l, v <> VTuple l) ->
  pack v lim = Ok bs -> forall n d, enc ul n d v bs.
Proof.
  intros HG HC HT HP n d. rewrite pack_unfold in HP. destruct (lim <? 0); [discriminate|].
  inversion HC; subst; inversion HG; subst; try (exfalso; eapply HT; reflexivity).
  - apply Ok_inj in HP; subst bs. constructor.
  - apply Ok_inj in HP; subst bs. constructor; [apply pack_int_enc|]; assumption.
  - apply Ok_inj in HP; subst bs. replace b with (num (be 8 b)) at 1.
    + constructor. apply be_bytes.
    + rewrite num_be. apply Z.mod_small. assumption.
  - destruct (zlen s >? ITEM_LIMIT) eqn:E; [discriminate|]. apply Ok_inj in HP; subst bs.
    constructor. apply pack_bin_hdr. unfold ITEM_LIMIT in E. pose proof (zlen_nonneg s). lia.
  - destruct (utf8_encode u) as [s| | |] eqn:EU; cbn [bind] in HP; try discriminate.
    destruct (zlen s >? ITEM_LIMIT) eqn:E; [discriminate|]. apply Ok_inj in HP; subst bs.
    constructor.
    + split; [assumption|]. pose proof (Utf8Proofs.utf8_round_trip u) as HR. rewrite EU in HR. apply HR.
      assumption.
    + apply pack_raw_hdr. unfold ITEM_LIMIT in E. pose proof (zlen_nonneg s). lia.
Qed.

Lemma lv_S lim : (lim <? 0) = false -> lv lim = S (lv (lim - 1)).
Proof. lia. Qed.

(** Hashable values packed inside a set. *)
Lemma hashable_enc v : forall lim bs, good keq v -> can_hash v -> pack v lim = Ok bs ->
  forall d, enc false (lv lim) d v bs.
Proof.
  induction v using value_ind'; intros lim bs HG HC HP dd;
    try (eapply scalar_enc; eauto; discriminate); try solve [inversion HC].
  rewrite pack_unfold in HP. destruct (lim <? 0) eqn:EL; [discriminate|].
  destruct (zlen l >? ITEM_LIMIT) eqn:E; [discriminate|].
  destruct (pack_items (lim - 1) l) as [body| | |] eqn:EB; cbn [bind] in HP; try discriminate.
  apply Ok_inj in HP; subst bs. rewrite lv_S by assumption. constructor.
  - apply pack_array_hdr. unfold ITEM_LIMIT in E. pose proof (zlen_nonneg l). lia.
  - inversion HG as [| | | | | |? HGl| | |]; subst. inversion HC as [| | | | |? HCl]; subst.
    clear E HG HC. revert body EB. induction l as [|x l IHl]; intros body EB.
    + apply Ok_inj in EB; subst body. constructor.
    + cbn [pack_items] in EB. fold (pack_items (lim - 1)) in EB.
      inversion H; inversion HGl; inversion HCl; subst.
      destruct (pack x (lim - 1)) as [a| | |] eqn:EA; cbn [bind] in EB; try discriminate.
      destruct (pack_items (lim - 1) l) as [b| | |] eqn:EB2; cbn [bind] in EB; try discriminate.
      apply Ok_inj in EB; subst body. constructor; [|apply IHl; auto].
      replace (Z.to_nat (lim - 1 + 1)) with (lv (lim - 1)) by lia. auto.
Qed.

Lemma hashable_items l lim body d : Forall (good keq) l -> Forall can_hash l ->
  pack_items lim l = Ok body -> enc_list false (lv lim) d l body.
Proof.
  revert body. induction l as [|x l IHl]; intros body HG HC EB.
  - apply Ok_inj in EB; subst body. constructor.
  - cbn [pack_items] in EB. fold (pack_items lim) in EB. inversion HG; inversion HC; subst.
    destruct (pack x lim) as [a| | |] eqn:EA; cbn [bind] in EB; try discriminate.
    destruct (pack_items lim l) as [b| | |] eqn:EB2; cbn [bind] in EB; try discriminate.
    apply Ok_inj in EB; subst body. constructor; [|apply IHl; auto]. apply hashable_enc; auto.
Qed.

Lemma items_enc l : Forall (fun v => forall lim bs d, good keq v -> lim <= 511 -> zlen bs < 2 ^ 32 - 1 ->
    pack v lim = Ok bs -> (1 <= d)%nat -> enc true (lv lim) d (norm v) bs) l ->
  forall lim body d, Forall (good keq) l -> lim <= 511 -> zlen body < 2 ^ 32 - 1 ->
  pack_items lim l = Ok body -> (1 <= d)%nat -> enc_list true (lv lim) d (map norm l) body.
Proof.
  induction 1 as [|x l Hx _ IH]; intros lim body d HG HL HZ HP Hd.
  - apply Ok_inj in HP; subst. constructor.
  - cbn [pack_items] in HP. fold (pack_items lim) in HP. inversion HG; subst.
    destruct (pack x lim) as [a| | |] eqn:EA; cbn [bind] in HP; try discriminate.
    destruct (pack_items lim l) as [b| | |] eqn:EB2; cbn [bind] in HP; try discriminate.
    apply Ok_inj in HP; subst. rewrite zlen_app in HZ.
    pose proof (zlen_nonneg a). pose proof (zlen_nonneg b).
    cbn [map]. constructor; [apply Hx|apply IH]; auto; lia.
Qed.

Lemma zlen_map {A B} (f : A -> B) l : zlen (map f l) = zlen l.
Proof. unfold zlen. rewrite map_length. reflexivity. Qed.

Lemma pack_enc v : forall lim bs d, good keq v -> lim <= 511 -> zlen bs < 2 ^ 32 - 1 -> pack v lim = Ok bs ->
  (1 <= d)%nat -> enc true (lv lim) d (norm v) bs.
Proof.
  induction v using value_ind'; intros lim bs dd HG HL HZ HP Hd;
    try (cbn [norm]; eapply scalar_enc; eauto; first [discriminate|constructor]; fail);
    rewrite pack_unfold in HP; destruct (lim <? 0) eqn:EL; try discriminate.
  - (* list *)
    destruct (zlen l >? ITEM_LIMIT) eqn:E; [discriminate|].
    destruct (pack_items (lim - 1) l) as [body| | |] eqn:EB; cbn [bind] in HP; try discriminate.
    apply Ok_inj in HP; subst bs. rewrite zlen_app in HZ. pose proof (zlen_nonneg (pack_array (zlen l))).
    inversion HG as [| | | | |? HGl| | | |]; subst.
    cbn [norm]. rewrite lv_S by assumption. constructor.
    + rewrite zlen_map. apply pack_array_hdr. unfold ITEM_LIMIT in E. pose proof (zlen_nonneg l). lia.
    + apply items_enc; auto; lia.
  - (* tuple *)
    destruct (zlen l >? ITEM_LIMIT) eqn:E; [discriminate|].
    destruct (pack_items (lim - 1) l) as [body| | |] eqn:EB; cbn [bind] in HP; try discriminate.
    apply Ok_inj in HP; subst bs. rewrite zlen_app in HZ. pose proof (zlen_nonneg (pack_array (zlen l))).
    inversion HG as [| | | | | |? HGl| | |]; subst.
    cbn [norm]. rewrite lv_S by assumption. constructor.
    + rewrite zlen_map. apply pack_array_hdr. unfold ITEM_LIMIT in E. pose proof (zlen_nonneg l). lia.
    + apply items_enc; auto; lia.
  - (* dict *)
    destruct (zlen l >? ITEM_LIMIT) eqn:E; [discriminate|].
    destruct (pack_pairs (lim - 1) l) as [body| | |] eqn:EB; cbn [bind] in HP; try discriminate.
    apply Ok_inj in HP; subst bs. rewrite zlen_app in HZ. pose proof (zlen_nonneg (pack_map (zlen l))).
    inversion HG as [| | | | | | |? HGk HGv HF HD| |]; subst.
    assert (HM : map fst (map (fun e : value * value => (fst e, norm (snd e))) l) = map fst l).
    { rewrite map_map. apply map_ext. reflexivity. }
    cbn [norm]. rewrite lv_S by assumption. constructor; rewrite ?HM.
    + rewrite zlen_map. apply pack_map_hdr. unfold ITEM_LIMIT in E. pose proof (zlen_nonneg l). lia.
    + clear E HD HG HM. assert (HZ' : zlen body < 2 ^ 32 - 1) by lia. clear HZ H0.
      revert body EB HZ'. induction l as [|[k x] l IHl]; intros body EB HZ.
      * apply Ok_inj in EB; subst. constructor.
      * cbn [pack_pairs] in EB. fold (pack_pairs (lim - 1)) in EB. cbn [map fst snd] in *.
        inversion H as [|? ? [_ Hx] Hl]; inversion HGk; inversion HGv; inversion HF as [|? ? [HC HT] HF']; subst.
        destruct (pack k (lim - 1)) as [a| | |] eqn:EA; cbn [bind] in EB; try discriminate.
        destruct (pack x (lim - 1)) as [b| | |] eqn:EX; cbn [bind] in EB; try discriminate.
        destruct (pack_pairs (lim - 1) l) as [c| | |] eqn:EC; cbn [bind] in EB; try discriminate.
        apply Ok_inj in EB; subst. rewrite !zlen_app in HZ.
        pose proof (zlen_nonneg a). pose proof (zlen_nonneg b). pose proof (zlen_nonneg c).
        constructor; [eapply scalar_enc; eauto|apply Hx; auto; lia|apply IHl; auto; lia].
    + apply Forall_impl with (2 := HF). intros ? [? _]; assumption.
    + assumption.
  - (* set *)
    destruct (zlen l >? ITEM_LIMIT) eqn:E; [discriminate|].
    destruct (pack_items (lim - 1) l) as [body| | |] eqn:EB; cbn [bind] in HP; try discriminate.
    apply Ok_inj in HP; subst bs. rewrite zlen_app in HZ.
    inversion HG as [| | | | | | | |? HGl HC HD|]; subst.
    cbn [norm]. destruct dd as [|dd]; [lia|].
    match goal with |- context [pack_ext _ ?n ++ _] => pose proof (zlen_nonneg (pack_ext kRuntimeSet n)) end.
    apply (e_set _ _ _ true _ dd (S (lv (lim - 1)))); auto.
    + constructor; [apply pack_array_hdr; unfold ITEM_LIMIT in E; pose proof (zlen_nonneg l); lia|].
      apply hashable_items; auto.
    + lia.
    + apply pack_ext_hdr. split; [apply zlen_nonneg|lia].
  - (* ndarray *)
    apply Ok_inj in HP; subst bs. inversion HG as [| | | | | | | | |? ? ? ? ? HN HS]; subst.
    destruct HN as (HD & HSh & HV). pose proof HD as (Hlanes & Hcode & Hbits).
    set (bd := [a; b] ++ le 2 c ++ le 4 (zlen d) ++ concat (map (le 8) d) ++ e) in *.
    assert (HF2 : Forall2 (fun s b => bytes 8 b /\ num_le b = s) d (map (le 8) d)).
    { clear - HSh. induction HSh; cbn [map]; constructor; auto. split; [apply le_bytes|].
      rewrite num_le_le. apply Z.mod_small. unfold two63 in *.
      change (256 ^ Z.of_nat 8) with (2 ^ 64). lia. }
    assert (HB : zlen bd = 8 + 8 * zlen d + zlen e).
    { unfold bd. rewrite !zlen_app, (concat_len8 _ _ HF2), (bytes_zlen _ _ (le_bytes 2 c)), (bytes_zlen _ _ (le_bytes 4 _)).
      rewrite !zlen_cons, zlen_nil. lia. }
    rewrite zlen_app in HZ. pose proof (zlen_nonneg e). pose proof (zlen_nonneg d).
    match type of HZ with zlen ?x + _ < _ => pose proof (zlen_nonneg x) end.
    assert (HSz : nd_size b c d = zlen e).
    { rewrite nd_size_true by assumption. rewrite <- HV. unfold wrapu64. apply Z.mod_small. unfold two64. lia. }
    rewrite HSz. replace (4 + 4 + 8 * zlen d + zlen e) with (zlen bd) by lia.
    cbn [norm]. unfold bd at 2. apply e_nd.
    + repeat split; auto; lia.
    + apply le_bytes.
    + rewrite num_le_le. change (256 ^ Z.of_nat 2) with 65536. lia.
    + apply le_bytes.
    + rewrite num_le_le. change (256 ^ Z.of_nat 4) with (2 ^ 32). lia.
    + assumption.
    + assumption.
    + fold bd. apply pack_ext_hdr. lia.
Qed.

(** ** Packing succeeds *)

Lemma one_len_le4 x : greedy_one_char_len x <= 4.
Proof. unfold greedy_one_char_len. repeat match goal with |- context [if ?c then _ else _] => destruct c end; lia. Qed.
Lemma count_le4 u : greedy_count_bytes u <= 4 * zlen u.
Proof.
  induction u as [|x u IH]; [cbn; lia|]. cbn [greedy_count_bytes]. rewrite zlen_cons.
  pose proof (one_len_le4 x). lia.
Qed.
Lemma encode_fits u : zlen u < 2 ^ 30 -> exists s, utf8_encode u = Ok s /\ zlen s < 2 ^ 32.
Proof.
  intros H. rewrite Utf8Proofs.utf8_encode_ok. eexists. split; [reflexivity|].
  pose proof (Utf8Proofs.greedy_encode_len u) as HL. pose proof (count_le4 u).
  unfold zlen in *. unfold Utf8Proofs.zlen in HL. lia.
Qed.

Lemma depth_in x l : In x l -> depth x <= fold_right (fun x m => Z.max (depth x) m) 0 l.
Proof. induction l as [|y l IH]; cbn [In fold_right]; [tauto|]. intros [->|H]; [lia|specialize (IH H); lia]. Qed.
Lemma depth_nonneg v : 0 <= depth v.
Proof.
  assert (F : forall l, 0 <= fold_right (fun x m => Z.max (depth x) m) 0 l).
  { induction l; cbn [fold_right]; lia. }
  destruct v; cbn [depth]; try lia; try (specialize (F l); lia).
  assert (0 <= fold_right (fun e m => Z.max (depth (fst e)) (Z.max (depth (snd e)) m)) 0 l); [|lia].
  induction l; cbn [fold_right]; lia.
Qed.

Lemma pack_succeeds v : forall lim, fits v -> depth v <= lim -> exists bs, pack v lim = Ok bs.
Proof.
  assert (IT : forall l lim, (forall x, In x l -> exists bs, pack x lim = Ok bs) ->
    exists bs, pack_items lim l = Ok bs).
  { induction l as [|x l IH]; intros lim H; [eexists; reflexivity|].
    cbn [pack_items]. fold (pack_items lim).
    destruct (H x) as [a ->]; [left; reflexivity|]. cbn [bind].
    destruct (IH lim) as [b ->]; [intros y Hy; apply H; right; exact Hy|]. eexists. reflexivity. }
  induction v using value_ind'; intros lim HF HD; rewrite pack_unfold;
    pose proof HD as HD'; cbn [depth] in HD'; inversion HF; subst;
    (destruct (lim <? 0) eqn:EL; [exfalso; match type of HD with depth ?v <= _ => pose proof (depth_nonneg v) end; lia|]);
    try (eexists; reflexivity).
  - destruct (zlen z >? ITEM_LIMIT) eqn:E; [unfold ITEM_LIMIT in E; lia|]. eexists; reflexivity.
  - destruct (encode_fits z) as (s & -> & Hs); [assumption|]. cbn [bind].
    destruct (zlen s >? ITEM_LIMIT) eqn:E; [unfold ITEM_LIMIT in E; lia|]. eexists; reflexivity.
  - destruct (zlen l >? ITEM_LIMIT) eqn:E; [unfold ITEM_LIMIT in E; lia|].
    destruct (IT l (lim - 1)) as [b ->]; [|eexists; reflexivity].
    rewrite Forall_forall in *. intros x Hx. apply H; auto. pose proof (depth_in x l Hx). lia.
  - destruct (zlen l >? ITEM_LIMIT) eqn:E; [unfold ITEM_LIMIT in E; lia|].
    destruct (IT l (lim - 1)) as [b ->]; [|eexists; reflexivity].
    rewrite Forall_forall in *. intros x Hx. apply H; auto. pose proof (depth_in x l Hx). lia.
  - destruct (zlen l >? ITEM_LIMIT) eqn:E; [unfold ITEM_LIMIT in E; lia|].
    assert (HB : exists b, pack_pairs (lim - 1) l = Ok b).
    { clear E HF HD H1. set (lim' := lim - 1) in *.
      assert (HX : fold_right (fun e m => Z.max (depth (fst e)) (Z.max (depth (snd e)) m)) 0 l <= lim') by lia.
      clear HD'. induction l as [|[k x] l IHl]; [eexists; reflexivity|].
      cbn [map fst snd fold_right] in *. inversion H as [|? ? [Hk Hx] Hl]; inversion H2; inversion H3; subst.
      cbn [fst snd] in *.
      cbn [pack_pairs]. fold (pack_pairs lim').
      destruct (Hk lim') as [a ->]; [assumption|lia|]. cbn [bind].
      destruct (Hx lim') as [b ->]; [assumption|lia|]. cbn [bind].
      destruct IHl as [c ->]; auto; [lia|]. eexists; reflexivity. }
    destruct HB as [b ->]. eexists; reflexivity.
  - destruct (zlen l >? ITEM_LIMIT) eqn:E; [unfold ITEM_LIMIT in E; lia|].
    destruct (IT l (lim - 1)) as [b ->]; [|eexists; reflexivity].
    rewrite Forall_forall in *. intros x Hx. apply H; auto. pose proof (depth_in x l Hx). lia.
Qed.

(** ** Round trip *)

Lemma enc_nonempty text ul n d v bs : MsgSpec.enc text widen keq ul n d v bs -> bs <> [].
Proof.
  intros H. inversion H; subst; try discriminate.
  - match goal with H : int_enc _ _ |- _ => inversion H; discriminate end.
  - match goal with H : bin_hdr _ _ |- _ => inversion H; discriminate end.
  - match goal with H : str_hdr _ _ |- _ => destruct H as [[_ ->]|H]; [|inversion H]; discriminate end.
  - match goal with H : arr_hdr _ _ |- _ => destruct H as [[_ ->]|H]; [|inversion H]; discriminate end.
  - match goal with H : arr_hdr _ _ |- _ => destruct H as [[_ ->]|H]; [|inversion H]; discriminate end.
  - match goal with H : map_hdr _ _ |- _ => destruct H as [[_ ->]|H]; [|inversion H]; discriminate end.
  - match goal with H : ext_hdr _ _ _ |- _ => destruct H as [|? H]; [|inversion H]; discriminate end.
  - match goal with H : ext_hdr _ _ _ |- _ => destruct H as [|? H]; [|inversion H]; discriminate end.
Qed.

Lemma round_trip ts v bs : good keq v -> dumps v = Ok bs -> zlen bs < 2 ^ 32 - 1 ->
  loads keq ts widen bs = Ok (norm v).
Proof.
  intros HG HP HZ. unfold dumps in HP.
  pose proof (pack_enc v 511 bs 1 HG ltac:(lia) HZ HP ltac:(lia)) as HE.
  unfold loads. pose proof (enc_nonempty _ _ _ _ _ _ HE) as HN.
  apply (decode_valid keq ts widen rt_text (fun u s H => proj2 H) true _ 1 _ _ HE); [lia|].
  destruct bs; [congruence|]. cbn [length]. lia.
Qed.
End Round.
