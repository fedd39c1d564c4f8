(** C39 (msgpack round trip), C40 (parsing arbitrary bytes), C41 (integers). *)
From Verif Require Import Base Utf8Model MsgModel MsgSpec MsgProofs MsgRound MsgSafe MsgPrefix.
From Verif Require Utf8Proofs Utf8Spec.
Ltac Zify.zify_post_hook ::= Z.to_euclidean_division_equations.

(** An equality of keys for the examples. *)
Definition keq0 (a b : value) : bool :=
  match a, b with
  | VNil, VNil => true
  | VInt x, VInt y => x =? y
  | VStr x, VStr y => if list_eq_dec Z.eq_dec x y then true else false
  | _, _ => false
  end.
Definition ts0 (s ns : Z) : Z := 0.
Definition widen0 (f : Z) : Z := f.

Lemma loads_run keq ts widen bs : loads keq ts widen bs =
  let! r := run keq ts widen (unpackb keq ts widen (length bs)) true bs VNil [] in
  match r with
  | Finish v rest => if 0 <? zlen rest then Exn ExtraData else Ok v
  | Ret ret =>
      if ret =? 0 then Exn Incomplete
      else if ret =? -2 then Exn FormatError
      else if ret =? -3 then Exn StackError
      else Exn ValueError
  end.
Proof. reflexivity. Qed.

(** ** C39 *)

(** Whatever [dumps] writes, [loads] reads back as the same value, tuples as lists. *)
Theorem C39_round_trip : forall keq ts_double widen v bs,
  good keq v -> dumps v = Ok bs -> zlen bs < 2 ^ 32 - 1 -> loads keq ts_double widen bs = Ok (norm v).
Proof. intros keq ts widen v bs. apply (round_trip keq widen ts v bs). Qed.
Print Assumptions C39_round_trip.

(** [dumps] accepts every value nested at most 511 deep and of fewer than 2^32 entries. *)
Theorem C39_dumps_accepts : forall v, fits v -> depth v <= 511 -> exists bs, dumps v = Ok bs.
Proof. intros v HF HD. apply (pack_succeeds keq0 widen0); [exact HF|exact HD]. Qed.
Print Assumptions C39_dumps_accepts.

(** [loads] reads every encoding the MessagePack format allows, not only its own. *)
Theorem C39_reads_any_encoding : forall keq ts_double widen n d v bs,
  enc Utf8Spec.wf widen keq true n d v bs -> (n <= 1024)%nat -> (d <= length bs)%nat ->
  loads keq ts_double widen bs = Ok v.
Proof.
  intros keq ts widen n d v bs H Hn Hd. unfold loads.
  apply (decode_valid keq ts widen Utf8Spec.wf Utf8Proofs.utf8_decode_wf true n d v bs H Hn). lia.
Qed.
Print Assumptions C39_reads_any_encoding.

Definition sample : value :=
  VDict [(VStr [233; 8364], VList [VInt (-129); VTuple [VNil; VFloat 4607182418800017408]]);
         (VInt 70000, VSet [VBytes [0; 255]; VTuple [VInt 7]]);
         (VNil, VNd 2 32 1 [1; 2] [1; 2; 3; 4; 5; 6; 7; 8])].
Ltac all_forall := repeat first [apply Forall_nil|apply Forall_cons].
Lemma distinct_nil keq : distinct keq []. Proof. intros [|? ?] ? ? ? ? H; discriminate. Qed.
Lemma distinct_cons keq x l : Forall (fun y => keq x y = false) l -> distinct keq l -> distinct keq (x :: l).
Proof.
  intros HF HD a u b v c H. destruct a as [|w a]; cbn [app] in H; injection H as Hx Hl.
  - subst. rewrite Forall_forall in HF. apply HF. apply in_or_app. right; left; reflexivity.
  - eapply HD, Hl.
Qed.
Example C39_example : good keq0 sample /\ fits sample /\ depth sample <= 511 /\
  exists bs, dumps sample = Ok bs /\ zlen bs < 2 ^ 32 - 1 /\ loads keq0 ts0 widen0 bs = Ok (norm sample).
Proof.
  assert (C1 : can_hash (VInt 7)) by constructor.
  split; [|split; [|split; [vm_compute; discriminate|]]].
  - unfold sample. apply g_dict; cbn [map fst snd].
    + all_forall; [apply g_str|apply g_int|apply g_nil]; [all_forall; lia|unfold int64, two63; lia].
    + all_forall.
      * apply g_list. all_forall; [apply g_int; unfold int64, two63; lia|]. apply g_tuple. all_forall; [apply g_nil|].
        apply g_float. unfold two64. lia.
      * apply g_set.
        -- all_forall; [apply g_bytes; all_forall; unfold is_byte; lia|]. apply g_tuple. all_forall.
           apply g_int. unfold int64, two63. lia.
        -- all_forall; [apply ch_bytes|apply ch_tuple; all_forall; exact C1].
        -- repeat (apply distinct_cons; [all_forall; reflexivity|]). apply distinct_nil.
      * apply g_nd; [|vm_compute; reflexivity]. split; [|split; [|reflexivity]].
        -- unfold good_dtype. cbn [In]. lia.
        -- all_forall; unfold two63; lia.
    + all_forall; split; try constructor; intros l H; discriminate.
    + repeat (apply distinct_cons; [all_forall; reflexivity|]). apply distinct_nil.
  - unfold sample. repeat first [apply f_nil|apply f_int|apply f_float|apply f_nd|apply f_dict; cbn [map fst snd]|apply f_list|apply f_tuple|apply f_set
      |apply f_bytes|apply f_str|apply Forall_nil|apply Forall_cons]; vm_compute; reflexivity.
  - eexists. split; [vm_compute; reflexivity|]. split; [vm_compute; reflexivity|vm_compute; reflexivity].
Qed.

(** A dict with a tuple as key is packed but cannot be read back. *)
Theorem C39_tuple_key_refuted : forall keq ts_double widen x v,
  (forall z, In z [x; v] -> 0 <= z <= 127) -> exists bs,
  dumps (VDict [(VTuple [VInt x], VInt v)]) = Ok bs /\ loads keq ts_double widen bs = Exn TypeError.
Proof.
  intros keq ts widen x v H. exists [129; 145; x; v].
  pose proof (H x (or_introl eq_refl)) as Hx. pose proof (H v (or_intror (or_introl eq_refl))) as Hv.
  assert (HI : forall z, 0 <= z <= 127 -> pack_int64 z = [z]).
  { intros z Hz. unfold pack_int64. repeat match goal with |- context [if ?c then _ else _] => destruct c eqn:? end; try lia.
    f_equal. lia. }
  split.
  - unfold dumps. cbn [pack]. change (511 <? 0) with false. change (511 - 1 <? 0) with false. change (511 - 1 - 1 <? 0) with false.
    cbn iota zeta. change (zlen [(VTuple [VInt x], VInt v)]) with 1. change (zlen [VInt x]) with 1.
    change (1 >? ITEM_LIMIT) with false. cbn iota. rewrite !HI by assumption. reflexivity.
  - rewrite loads_run.
    assert (HH : forall rec z q o, 0 <= z <= 127 -> header keq ts rec widen (z :: q) o = Ok (IVal (VInt z) q)).
    { intros rec z q o Hz. apply header_posfix. exact Hz. }
    rewrite (run_map _ _ _ _ _ _ _ _ 1 [145; x; v]) by reflexivity. change (1 =? 0) with false. cbn iota.
    rewrite (run_array _ _ _ _ _ _ _ _ 1 [x; v]) by reflexivity. change (1 =? 0) with false. cbn iota.
    erewrite run_val; [|apply HH; assumption]. unfold after. cbn [push mk_array app bind].
    change (0 + 1 =? 1) with true. cbn iota. cbn [bind].
    erewrite run_val; [|apply HH; assumption]. reflexivity.
Qed.
Print Assumptions C39_tuple_key_refuted.

(** ** C40 *)

(** On every byte string, [loads] terminates with a value or an exception: every read is
    inside the input and every write to the container stack inside its 1024 slots. Inputs
    that contain the header of a timestamp extension are excluded; see below. *)
Theorem C40_safe_partial : forall keq ts_double widen bs, Forall is_byte bs -> ~ has_timestamp bs ->
  (exists v, loads keq ts_double widen bs = Ok v) \/ (exists x, loads keq ts_double widen bs = Exn x).
Proof.
  intros keq ts widen bs HF HT. unfold loads.
  destruct (unpackb_fine keq ts widen (S (length bs)) bs true HF ltac:(lia)) as [H1 H2].
  destruct (unpackb keq ts widen (S (length bs)) bs true); eauto; [tauto|congruence].
Qed.
Print Assumptions C40_safe_partial.
(** Termination needs no exclusion. *)
Theorem C40_terminates : forall keq ts_double widen bs, Forall is_byte bs ->
  loads keq ts_double widen bs <> OutOfFuel.
Proof.
  intros keq ts widen bs HF. unfold loads.
  apply (unpackb_fine keq ts widen (S (length bs)) bs true HF ltac:(lia)).
Qed.
Print Assumptions C40_terminates.
(** Trailing data is rejected. *)
Theorem C40_trailing : forall keq ts_double widen bs e v,
  loads keq ts_double widen bs = Ok v -> e <> [] -> loads keq ts_double widen (bs ++ e) = Exn ExtraData.
Proof. intros keq ts widen bs e v H HE. pose proof (loads_app keq ts widen bs e HE) as HL. rewrite H in HL. exact HL. Qed.
Print Assumptions C40_trailing.
(** Truncated data is rejected: no proper prefix of a readable message is readable. *)
Theorem C40_truncated : forall keq ts_double widen p e v, Forall is_byte p -> ~ has_timestamp p ->
  loads keq ts_double widen (p ++ e) = Ok v -> e <> [] -> loads keq ts_double widen p = Exn Incomplete.
Proof.
  intros keq ts widen p e v HF HT H HE. pose proof (loads_app keq ts widen p e HE) as HL.
  destruct (C40_safe_partial keq ts widen p HF HT) as [[w Hw]|[x Hx]].
  - rewrite Hw in HL. congruence.
  - rewrite Hx in HL. destruct x; try congruence.
Qed.
Print Assumptions C40_truncated.
(** An error other than "incomplete input" cannot be repaired by more data. *)
Theorem C40_error_is_final : forall keq ts_double widen p e x,
  loads keq ts_double widen p = Exn x -> x <> Incomplete -> loads keq ts_double widen (p ++ e) = Exn x.
Proof.
  intros keq ts widen p e x H HX. destruct e as [|b e]; [rewrite app_nil_r; exact H|].
  pose proof (loads_app keq ts widen p (b :: e) ltac:(discriminate)) as HL. rewrite H in HL. destruct x; congruence.
Qed.
Print Assumptions C40_error_is_final.

(** More than 1024 nested arrays are rejected, whatever their sizes and what follows. *)
Definition opens_array (hd : list Z) : Prop := exists n, 1 <= n /\ arr_hdr n hd.
Lemma run_deep keq ts widen rec hds : forall stk obj tail n hd, Forall opens_array hds ->
  zlen hds + zlen stk = 1024 -> arr_hdr n hd ->
  run keq ts widen rec true (concat hds ++ hd ++ tail) obj stk = Ok (Ret (-3)).
Proof.
  induction hds as [|h hds IH]; intros stk obj tail n hd HF HZ HH.
  - cbn [concat app]. rewrite zlen_nil in HZ. pose proof (header_arr keq ts widen rec n hd tail obj HH) as E.
    rewrite run_unfold by (destruct HH as [[_ ->]|HH]; [|inversion HH]; discriminate).
    rewrite E. cbn [bind]. unfold start_container, STACK_SIZE. replace (zlen stk >=? 1024) with true by lia. reflexivity.
  - inversion HF as [|? ? [m [Hm Hh]] HF']; subst. cbn [concat]. rewrite <- app_assoc.
    pose proof (header_arr keq ts widen rec m h (concat hds ++ hd ++ tail) obj Hh) as E.
    rewrite run_unfold by (destruct Hh as [[_ ->]|Hh]; [|inversion Hh]; discriminate).
    rewrite E. cbn [bind]. unfold start_container, STACK_SIZE. rewrite zlen_cons in HZ. pose proof (zlen_nonneg hds).
    replace (zlen stk >=? 1024) with false by lia. replace (zlen stk <? 1024) with true by lia. cbn [negb].
    replace (m =? 0) with false by lia. cbn [bind]. eapply IH; [exact HF'| |exact HH]. rewrite zlen_cons. lia.
Qed.
Theorem C40_nesting_limit : forall keq ts_double widen hds hd n tail, Forall opens_array hds ->
  zlen hds = 1024 -> arr_hdr n hd -> loads keq ts_double widen (concat hds ++ hd ++ tail) = Exn StackError.
Proof.
  intros keq ts widen hds hd n tail HF HZ HH. unfold loads. cbn [unpackb]. unfold unpackb_body.
  pose proof (run_deep keq ts widen (unpackb keq ts widen (length (concat hds ++ hd ++ tail))) hds [] VNil tail n hd HF
    ltac:(rewrite zlen_nil; lia) HH) as E. unfold run in E. rewrite E. reflexivity.
Qed.
Print Assumptions C40_nesting_limit.

Example C40_example :
  let bs := [130; 161; 97; 147; 1; 192; 202; 63; 128; 0; 0; 204; 200; 196; 2; 1; 2] in
  (exists v, loads keq0 ts0 widen0 bs = Ok v) /\
  loads keq0 ts0 widen0 (firstn 12 bs) = Exn Incomplete /\
  loads keq0 ts0 widen0 (bs ++ [192]) = Exn ExtraData /\
  loads keq0 ts0 widen0 [146; 1; 193; 5] = Exn FormatError.
Proof. split; [eexists; vm_compute; reflexivity|]. repeat split; vm_compute; reflexivity. Qed.
Example C40_example_no_timestamp : ~ has_timestamp [146; 1; 192] /\ Forall is_byte [146; 1; 192].
Proof.
  split; [|repeat constructor; unfold is_byte; lia].
  intros (a & m & b & Hm & E). assert (HI : forall z, In z m -> In z [146; 1; 192]).
  { intros z Hz. rewrite E. apply in_or_app. right. apply in_or_app. left. exact Hz. }
  assert (HX : In 255 [146; 1; 192]); [|cbn [In] in HX; lia]. apply HI.
  cbn [In ts_marks] in Hm. repeat (destruct Hm as [<-|Hm]; [cbn [In]; auto 10|]). destruct Hm.
Qed.
Example C40_example_nested : Forall opens_array (repeat [145] 1024) /\ zlen (repeat [145] 1024) = 1024 /\ arr_hdr 0 [144].
Proof.
  split; [|split; [unfold zlen; rewrite repeat_length; reflexivity|left; split; [lia|reflexivity]]].
  apply Forall_forall. intros x Hx. apply repeat_spec in Hx. subst x. exists 1. split; [lia|]. left. split; [lia|reflexivity].
Qed.

(** Timestamps: the number of seconds is written into the payload of whatever object was read
    last, which keeps its old type. A timestamp on its own is read as None. *)
Theorem C40_timestamp_refuted : forall keq ts_double widen t, bytes 4 t ->
  loads keq ts_double widen ([214; 255] ++ t) = Ok VNil.
Proof.
  intros keq ts widen t [HL HF]. do 5 (destruct t as [|? t]; try discriminate). reflexivity.
Qed.
Print Assumptions C40_timestamp_refuted.
(** After a str (or any other heap object) it overwrites that object's pointer. *)
Theorem C40_timestamp_memory_refuted : forall keq ts_double widen c t, 0 <= c < 128 -> bytes 4 t ->
  loads keq ts_double widen ([146; 161; c; 214; 255] ++ t) = OOB.
Proof.
  intros keq ts widen c t Hc [HL HF]. do 5 (destruct t as [|? t]; try discriminate).
  rewrite loads_run. cbn [app].
  rewrite (run_array _ _ _ _ _ _ _ _ 2 [161; c; 214; 255; z; z0; z1; z2]) by reflexivity. change (2 =? 0) with false. cbn iota.
  assert (HS : Utf8Spec.wf [c] [c]).
  { apply (Utf8Spec.wf_cons c [c] [] []); constructor; lia. }
  pose proof (header_str keq ts widen (unpackb keq ts widen 9) 1 [161] [c] [214; 255; z; z0; z1; z2] VNil) as HH.
  cbn [app] in HH. rewrite (Utf8Proofs.utf8_decode_wf _ _ HS) in HH. cbn [bind] in HH.
  erewrite run_val; [|apply HH; [left; split; [lia|reflexivity]|reflexivity]].
  unfold after. cbn [push app bind]. change (0 + 1 =? 2) with false. cbn iota. cbn [bind].
  rewrite run_unfold by discriminate. reflexivity.
Qed.
Print Assumptions C40_timestamp_memory_refuted.
(** The recursion through nested set extensions is not bounded: [6 * k + 1] bytes make the
    parser call itself more than [k] levels deep. *)
Fixpoint nested_sets (k : nat) : list Z :=
  match k with
  | O => [144]
  | S k' => 201 :: be 4 (zlen (nested_sets k')) ++ 9 :: nested_sets k'
  end.
Theorem C40_recursion_unbounded_refuted : forall keq ts_double widen k ul,
  6 * Z.of_nat k + 1 < 2 ^ 32 - 1 ->
  zlen (nested_sets k) = 6 * Z.of_nat k + 1 /\ unpackb keq ts_double widen k (nested_sets k) ul = OutOfFuel.
Proof.
  intros keq ts widen k. induction k as [|k IH]; intros ul HK; [split; reflexivity|].
  destruct (IH false) as [HL HR]; [lia|]. split.
  - cbn [nested_sets]. rewrite zlen_cons, zlen_app, zlen_cons, HL. unfold zlen. rewrite be_length. lia.
  - cbn [nested_sets unpackb]. unfold unpackb_body.
    set (s := nested_sets k) in *.
    assert (HX : ext_hdr 9 (zlen s) ((201 :: be 4 (zlen s)) ++ [9])).
    { apply eh_ext; [|lia]. apply be_sized; [cbn [In]; auto|]. change (256 ^ Z.of_nat 4) with (2 ^ 32). lia. }
    pose proof (header_ext keq ts widen (unpackb keq ts widen k) 9 (zlen s) _ s [] VNil HX eq_refl ltac:(lia)) as HH.
    rewrite app_nil_r in HH. rewrite <- app_assoc in HH. cbn [app] in HH.
    pose proof (run_unfold keq ts widen (unpackb keq ts widen k) ul (201 :: be 4 (zlen s) ++ 9 :: s) VNil [] ltac:(discriminate)) as RU.
    unfold run at 1 in RU. rewrite RU, HH. unfold ext_hook. change (9 =? kRuntimeSet) with true. cbn iota.
    rewrite <- (app_nil_r s) at 1. rewrite slice_app by reflexivity. cbn [bind]. rewrite HR. reflexivity.
Qed.
Print Assumptions C40_recursion_unbounded_refuted.
(** An NDArray whose extents overflow 64 bits is accepted with a buffer of no bytes at all. *)
Theorem C40_ndarray_refuted : forall keq ts_double widen, exists shape,
  loads keq ts_double widen
    ([199; 24; 2; 0; 8; 1; 0; 2; 0; 0; 0] ++ [0; 0; 0; 0; 1; 0; 0; 0] ++ [0; 0; 0; 0; 1; 0; 0; 0])
  = Ok (VNd 0 8 1 shape []) /\ volume shape * elem_size 8 1 = 2 ^ 64.
Proof. intros keq ts widen. exists [4294967296; 4294967296]. split; reflexivity. Qed.
Print Assumptions C40_ndarray_refuted.

(** ** C41 *)

Theorem C41_shortest : forall z, int64 z -> exists bs, dumps (VInt z) = Ok bs /\ int_enc z bs /\
  forall e, int_enc z e -> (length bs <= length e)%nat.
Proof.
  intros z Hz. exists (pack_int64 z). split; [reflexivity|]. split; [apply pack_int_enc; exact Hz|].
  intros e He. apply shortest; assumption.
Qed.
Print Assumptions C41_shortest.
Theorem C41_round_trip : forall keq ts_double widen z bs, int64 z -> dumps (VInt z) = Ok bs ->
  loads keq ts_double widen bs = Ok (VInt z).
Proof.
  intros keq ts widen z bs Hz H. apply (C39_round_trip keq ts widen (VInt z)); [apply g_int; exact Hz|exact H|].
  apply Ok_inj in H. subst bs. rewrite pack_int_len. repeat match goal with |- context [if ?c then _ else _] => destruct c end; lia.
Qed.
Print Assumptions C41_round_trip.
(** Every spelling of a 64-bit integer is read as that integer. *)
Theorem C41_reads_any_spelling : forall keq ts_double widen z bs, int64 z -> int_enc z bs ->
  loads keq ts_double widen bs = Ok (VInt z).
Proof.
  intros keq ts widen z bs Hz H. apply (C39_reads_any_encoding keq ts widen 0 0); [|lia|lia]. apply e_int; assumption.
Qed.
Print Assumptions C41_reads_any_spelling.
Example C41_example : int64 (-32769) /\ dumps (VInt (-32769)) = Ok [210; 255; 255; 127; 255] /\
  loads keq0 ts0 widen0 [210; 255; 255; 127; 255] = Ok (VInt (-32769)).
Proof. split; [unfold int64, two63; lia|]. split; vm_compute; reflexivity. Qed.
(** An unsigned 64-bit number of 2^63 or more is read as a negative one. *)
Theorem C41_uint64_refuted : forall keq ts_double widen b, bytes 8 b -> 2 ^ 63 <= num b ->
  int_enc (num b) (207 :: b) /\ loads keq ts_double widen (207 :: b) = Ok (VInt (num b - 2 ^ 64)).
Proof.
  intros keq ts widen b Hb H. split; [apply (ie_uint 207 8); [cbn [In]; auto|exact Hb]|].
  unfold loads. cbn [unpackb]. apply unpackb_finish.
  assert (HH : forall rec o, header keq ts rec widen (207 :: b) o = Ok (IVal (VInt (num b - 2 ^ 64)) [])).
  { intros rec o. rewrite <- (app_nil_r b) at 1. unfold header, fixed_trail, rd. cbn [nth_error bind tl].
    cbn [Z.leb Z.eqb Z.compare Pos.compare Pos.compare_cont Pos.eqb andb].
    rewrite (enough 8 b []) by exact Hb. rewrite (load_bytes 8 b []) by exact Hb. cbn [bind].
    rewrite advance_app by (symmetry; apply bytes_zlen, Hb). do 3 f_equal. unfold sext.
    change (2 ^ (64 - 1)) with (2 ^ 63). destruct (num b <? 2 ^ 63) eqn:E; [lia|reflexivity]. }
  rewrite (run_val keq ts widen _ _ _ _ _ _ _ (HH _ _)). reflexivity.
Qed.
Print Assumptions C41_uint64_refuted.
