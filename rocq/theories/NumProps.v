(** C50: int() and float() of text. *)
From Verif Require Import Base Utf8Model Utf8Proofs TextModel NumModel NumSpec NumProofs.
From Verif Require FmtModel FmtSpec FmtProofs.

Lemma encode_ascii s : Forall (fun c => 0 < c < 128) s -> utf8_encode s = Ok s.
Proof.
  intros F. rewrite utf8_encode_ok. f_equal. induction F as [|c s H _ IH]; [reflexivity|].
  cbn [greedy_encode]. rewrite IH. unfold greedy_encode_one.
  replace (c <? 128) with true by lia. reflexivity.
Qed.

Lemma ascii_byte1 s : Forall (fun c => 0 < c < 128) s -> Forall byte1 s.
Proof. apply Forall_impl. unfold byte1. lia. Qed.

(** ** What is accepted is what Python reads *)

(** Every byte string, whatever was converted before: a value or an exception, and the value
    fits 64 bits. *)
Theorem C50_int_total : forall errno s base, Forall is_byte s ->
  (exists v, fst (int_bytes errno s base) = Ok v /\ - two63 < v < two63) \/
  (exists x, fst (int_bytes errno s base) = Exn x).
Proof. exact int_total. Qed.
Print Assumptions C50_int_total.

(** What int(s, base) accepts is an integer in Python and has the same value, for a text
    without a NUL byte and without a decimal digit too large for the base. *)
Theorem C50_int_sound_partial : forall errno s base v,
  Forall (fun c => 0 < c < 256) s -> digits_fit base s ->
  fst (int_bytes errno s base) = Ok v ->
  py_int_bytes base s v /\ - two63 < v < two63.
Proof.
  intros e s b v F DF H. destruct (int_call_shape e s b F DF) as [(x & E)|(w & T & E)];
    rewrite E in H; [discriminate|].
  destruct (Z.ltb_spec (two63 - 1) (Z.abs w)); [discriminate|].
  destruct (e =? ERANGE); [discriminate|]. injection H as <-. split; [|lia].
  eapply int_text_mono; [|exact T]. auto.
Qed.
Print Assumptions C50_int_sound_partial.

Theorem C50_int_str_sound_partial : forall errno s base v,
  Forall (fun c => 0 < c < 128) s -> digits_fit base s ->
  fst (int_str errno s base) = Ok v ->
  py_int_str base s v /\ - two63 < v < two63.
Proof.
  intros e s b v F DF H. unfold int_str in H. rewrite (encode_ascii s F) in H.
  change (fst (int_bytes e s b) = Ok v) in H.
  destruct (int_call_shape e s b (ascii_byte1 s F) DF) as [(x & E)|(w & T & E)];
    rewrite E in H; [discriminate|].
  destruct (Z.ltb_spec (two63 - 1) (Z.abs w)); [discriminate|].
  destruct (e =? ERANGE); [discriminate|]. injection H as <-. split; [|lia].
  eapply int_text_mono; [|exact T]. unfold bytes_space, str_space. intros; lia.
Qed.
Print Assumptions C50_int_str_sound_partial.

(** Every integer Python reads is accepted with its value, if it is written with decimal
    digits and no underscore between them, its magnitude is below 2^63, it is not a zero
    without prefix read with base 0, and no range error happened before. *)
Theorem C50_int_complete_partial : forall errno s base v,
  errno <> ERANGE -> int_text decimal_of False bytes_space base s v ->
  - two63 < v < two63 -> (base <> 0 \/ v <> 0) ->
  int_bytes errno s base = (Ok v, errno) /\
  (Forall (fun c => c < 128) s -> int_str errno s base = (Ok v, errno)).
Proof.
  intros e s b v He T R NZ. pose proof (int_complete e s b v He T R NZ) as H. split; [exact H|].
  intros A. unfold int_str. rewrite encode_ascii; [exact H|].
  assert (N : ~ In 0 s).
  { apply (no_nul_in_text b s v). eapply int_text_mono; [|exact T]. auto. }
  assert (P : Forall (fun c => 0 <= c) s).
  { destruct T as (w1 & sg & body & w2 & m & -> & F1 & F2 & M & S). rewrite !Forall_app.
    repeat split.
    - eapply Forall_impl; [|exact F1]. unfold bytes_space. lia.
    - destruct S as [(-> & _)|[(-> & _)|(-> & _)]]; repeat constructor; lia.
    - apply Forall_forall. intros c Hc.
      assert (M' : magnitude digit_of True b body m)
        by (eapply magnitude_mono; [exact decimal_digit| |exact M]; auto).
      pose proof (magnitude_chars _ _ _ M' c Hc). lia.
    - eapply Forall_impl; [|exact F2]. unfold bytes_space. lia. }
  rewrite Forall_forall in *. intros c Hc. specialize (A c Hc). specialize (P c Hc). cbn in P.
  assert (c <> 0) by (intros ->; exact (N Hc)). lia.
Qed.
Print Assumptions C50_int_complete_partial.

(** [" -0x10\n"] with base 0 *)
Example C50_int_example :
  Forall (fun c => 0 < c < 256) [32; 45; 48; 120; 49; 48; 10] /\
  digits_fit 0 [32; 45; 48; 120; 49; 48; 10] /\
  int_text decimal_of False bytes_space 0 [32; 45; 48; 120; 49; 48; 10] (-16) /\
  fst (int_bytes 0 [32; 45; 48; 120; 49; 48; 10] 0) = Ok (-16).
Proof.
  split; [repeat constructor; lia|]. split.
  { intros c H Hc. cbn in H. cbn. repeat split; intros; lia. }
  split; [|vm_compute; reflexivity].
  exists [32], [45], [48; 120; 49; 48], [10], 16. split; [reflexivity|].
  split; [repeat constructor|]. split; [repeat constructor; unfold bytes_space; lia|].
  split; [|auto]. right. split; [reflexivity|]. left. exists 16, 120, [49; 48].
  split; [constructor|]. split; [now left|].
  apply (dg_next decimal_of False 16 0 49 1); [now apply (de_dec 49)|lia|].
  apply (dg_last decimal_of False 16 1 48 0); [now apply (de_dec 48)|lia].
Qed.

(** ** str() and back *)

Theorem C50_str_round_trip_partial : forall errno n, errno <> ERANGE -> - two63 < n < two63 ->
  FmtSpec.py_int_str n (FmtModel.put_int n) /\
  int_bytes errno (FmtModel.put_int n) 10 = (Ok n, errno) /\
  int_str errno (FmtModel.put_int n) 10 = (Ok n, errno).
Proof.
  intros e n He R. assert (I : int64 n) by (unfold int64; lia).
  split; [now apply FmtProofs.put_int_ok|].
  destruct (C50_int_complete_partial e _ 10 n He (put_int_text n I) R ltac:(lia)) as [H1 H2].
  split; [exact H1|]. apply H2.
  assert (D : forall k t, FmtSpec.py_nat_str k t -> Forall (fun c => c < 128) t).
  { intros k t (F & _). eapply Forall_impl; [|exact F]. cbn. lia. }
  destruct (FmtProofs.put_int_ok n I) as [(_ & P)|(_ & t & -> & P)]; [eauto|].
  constructor; [lia|eauto].
Qed.
Print Assumptions C50_str_round_trip_partial.

(** The smallest 64-bit integer is the exception, and the failure is a range error. *)
Theorem C50_smallest_integer_refuted : forall errno,
  py_int_bytes 10 (FmtModel.put_int (- two63)) (- two63) /\
  int_bytes errno (FmtModel.put_int (- two63)) 10 = (Exn RuntimeError, ERANGE).
Proof.
  intros e. split; [|vm_compute; reflexivity].
  eapply int_text_mono; [|apply put_int_text; unfold int64, two63; lia]. auto.
Qed.
Print Assumptions C50_smallest_integer_refuted.

Example C50_round_trip_example :
  FmtModel.put_int (-9223372036854775807) =
    [45; 57; 50; 50; 51; 51; 55; 50; 48; 51; 54; 56; 53; 52; 55; 55; 53; 56; 48; 55] /\
  int_bytes 0 (FmtModel.put_int (-9223372036854775807)) 10 = (Ok (-9223372036854775807), 0).
Proof. vm_compute. split; reflexivity. Qed.

(** ** Histories *)

(** A conversion cannot go out of range: an integer text that fits 64 bits, a float text for
    which the C library reports no range error. *)
Definition in_range {F} (strtod : list Z -> F * nat * bool) (c : conversion) : Prop :=
  match c with
  | CInt s b => Forall (fun c => 0 < c < 256) s /\ digits_fit b s /\
                forall v, py_int_bytes b s v -> - two63 < v < two63
  | CFloat s => snd (strtod (c_string s)) = false
  end.

(** As long as no conversion goes out of range, each one gives what it gives on its own. *)
Theorem C50_calls_independent_partial : forall F (strtod : list Z -> F * nat * bool) calls,
  Forall (in_range strtod) calls ->
  convert_all strtod 0 calls = map (fun c => fst (convert strtod 0 c)) calls.
Proof.
  intros F strtod calls H. induction H as [|c calls Hc H IH]; [reflexivity|].
  cbn [convert_all map]. assert (E : snd (convert strtod 0 c) = 0).
  { destruct c as [s b|s]; cbn in Hc |- *.
    - destruct Hc as (F1 & DF & R). destruct (int_call_shape 0 s b F1 DF) as [(x & E)|(v & T & E)];
        rewrite E; [reflexivity|].
      assert (P : py_int_bytes b s v) by (eapply int_text_mono; [|exact T]; auto).
      specialize (R v P). replace (two63 - 1 <? Z.abs v) with false by (unfold two63 in *; lia). reflexivity.
    - unfold string_to_float64. destruct (length s =? 0)%nat; [reflexivity|].
      destruct (strtod (c_string s)) as [[d n] rg]. cbn in Hc. subst rg.
      destruct (n =? 0)%nat; reflexivity. }
  destruct (convert strtod 0 c) as [r e]. cbn in E. subst e. cbn. now rewrite IH.
Qed.
Print Assumptions C50_calls_independent_partial.

Lemma stuck F (strtod : list Z -> F * nat * bool) calls :
  Forall (fun r => forall v, r <> Ok v) (convert_all strtod ERANGE calls).
Proof.
  induction calls as [|c calls IH]; [constructor|]. cbn [convert_all].
  destruct (convert strtod ERANGE c) as [r e] eqn:E.
  assert ((forall v, r <> Ok v) /\ e = ERANGE) as [Hr ->].
  { destruct c as [s b|s]; cbn in E.
    - pose proof (int_stuck s b) as H1. pose proof (int_stuck_errno s b) as H2.
      destruct (int_bytes ERANGE s b) as [r0 e0]. cbn in H1, H2. injection E as <- <-.
      split; [|exact H2]. intros v X. destruct r0; try discriminate. now apply (H1 a).
    - unfold string_to_float64 in E. destruct (length s =? 0)%nat; [injection E as <- <-; split; [discriminate|reflexivity]|].
      destruct (strtod (c_string s)) as [[d n] rg].
      destruct rg, (n =? 0)%nat; cbn in E; injection E as <- <-; (split; [discriminate|reflexivity]). }
  constructor; [exact Hr|exact IH].
Qed.

(** After one conversion out of range every later conversion of the thread raises. *)
Theorem C50_stale_range_error_refuted : forall F (strtod : list Z -> F * nat * bool) errno s base v calls,
  int_text decimal_of False bytes_space base s v -> two63 <= Z.abs v ->
  Forall (fun r => forall x, r <> Ok x) (convert_all strtod errno (CInt s base :: calls)).
Proof.
  intros F strtod e s b v calls T Big. cbn [convert_all convert].
  assert (E : int_bytes e s b = (Exn RuntimeError, ERANGE)).
  { destruct T as (before & sign & body & after & m & Es & F1 & F2 & M & Hv).
    assert (A : Z.abs v = Z.abs m) by (destruct Hv as [(_ & ->)|[(_ & ->)|(_ & ->)]]; lia).
    destruct (magnitude_lead b body m M ltac:(right; unfold two63 in Big; lia)) as (b' & pre & p & -> & L & D).
    destruct (digits_dec _ _ _ _ D) as [Fp Hm]. pose proof (lead_range _ _ _ _ L) as Hb'.
    specialize (Hm ltac:(lia) ltac:(lia)). destruct (scan_digits_all _ _ _ _ D) as [Sc NE].
    assert (exists sg, sign_of sign sg) as (sg & Hs).
    { unfold sign_of. destruct Hv as [(-> & ->)|[(-> & ->)|(-> & ->)]]; eauto 6. }
    unfold int_bytes, string_to_int64. rewrite Es.
    rewrite (int_start_complete before sign pre p after b b' sg F1 F2 Hs Fp NE L).
    rewrite (strtoll_dec b' p Hb' Fp), Sc.
    destruct p as [|d p]; [congruence|]. cbn [length].
    replace (two63 - 1 <? m) with true by lia. reflexivity. }
  rewrite E. constructor; [discriminate|]. apply stuck.
Qed.
Print Assumptions C50_stale_range_error_refuted.

(** int("1"); int("9223372036854775808"); int("1") *)
Example C50_stale_example : forall F (strtod : list Z -> F * nat * bool),
  let big := [57; 50; 50; 51; 51; 55; 50; 48; 51; 54; 56; 53; 52; 55; 55; 53; 56; 48; 56] in
  convert_all strtod 0 [CInt [49] 10; CInt big 10; CInt [49] 10] =
    [Ok (inl 1); Exn RuntimeError; Exn RuntimeError] /\
  Forall (in_range strtod) [CInt [49] 10; CInt [50] 10].
Proof.
  intros F strtod. split; [vm_compute; reflexivity|].
  assert (G : forall c, 49 <= c <= 57 -> forall v, py_int_bytes 10 [c] v -> - two63 < v < two63).
  { intros c Hc v (w1 & sg & body & w2 & m & E & F1 & F2 & M & S).
    assert (L : (length body <= 1)%nat).
    { apply (f_equal (@length Z)) in E. rewrite !app_length in E. cbn in E. lia. }
    assert (m = c - 48).
    { destruct M as [(_ & [D|(k & p & P & [->| ->] & D)])|(? & _)]; [|cbn in L; lia..|lia].
      assert (body = [c]) as ->.
      { destruct body as [|x body]; [inversion D|]. destruct body; [|cbn in L; lia].
        assert (X : In x [c]) by (rewrite E, !in_app_iff; cbn; tauto). destruct X as [->|[]]. reflexivity. }
      inversion D as [a c0 d Dg|a c0 d s0 v0 Dg Ld D'|]; subst; [|inversion D'].
      inversion Dg; subst; lia. }
    assert (v = m \/ v = - m) by (destruct S as [(_ & ->)|[(_ & ->)|(_ & ->)]]; auto).
    unfold two63. lia. }
  assert (D : forall c, 49 <= c <= 57 -> in_range strtod (CInt [c] 10)).
  { intros c Hc. split; [constructor; [lia|constructor]|]. split; [|exact (G c Hc)].
    intros x Hx. cbn in Hx. repeat split; intros; lia. }
  constructor; [apply D; lia|]. constructor; [apply D; lia|constructor].
Qed.

(** ** Where int() differs from Python *)

(** With a base below 10, digits too large for the base end the number instead of making it
    an error: int("12", 2) is 1. *)
Theorem C50_large_digit_refuted : forall errno base ds m c rest,
  errno <> ERANGE -> 2 <= base <= 9 -> digits decimal_of False base 0 ds m -> m < two63 ->
  base <= c - 48 <= 9 -> Forall (fun c => 48 <= c <= 57) rest ->
  int_bytes errno (ds ++ c :: rest) base = (Ok m, errno) /\
  ~ exists v, py_int_bytes base (ds ++ c :: rest) v.
Proof.
  intros e b ds m c rest He Hb D Hm Hc Hr.
  destruct (digits_dec _ _ _ _ D) as [Fd Hm0]. specialize (Hm0 ltac:(lia) ltac:(lia)).
  assert (Fp : Forall is_dec (ds ++ c :: rest)).
  { apply Forall_app. split; [exact Fd|]. constructor; [unfold is_dec; lia|exact Hr]. }
  split.
  - unfold int_bytes, string_to_int64.
    assert (IS : int_start (ds ++ c :: rest) b = Ok (ds ++ c :: rest, b, 1)).
    { pose proof (int_start_complete [] [] [] (ds ++ c :: rest) [] b b 1) as IS.
      cbn [app] in IS. rewrite app_nil_r in IS. apply IS; [constructor|constructor| |exact Fp| |].
      - left. auto.
      - destruct ds; discriminate.
      - right; left. repeat split; lia. }
    rewrite IS.
    rewrite (strtoll_dec b _ ltac:(lia) Fp).
    assert (Sc : forall acc ds m, digits decimal_of False b acc ds m ->
                 scan_digits b acc (ds ++ c :: rest) = (m, length ds)).
    { clear - Hc. intros acc ds m H. induction H as [acc k d Dk L|acc k d s v Dk L H IH|acc k d s v X Dk L H IH];
        [| |contradiction].
      - inversion Dk; subst. cbn. rewrite alnum_dec by assumption.
        replace (k - 48 <? b) with true by lia. rewrite alnum_dec by (unfold is_dec; lia).
        replace (c - 48 <? b) with false by lia. reflexivity.
      - inversion Dk; subst. cbn [app scan_digits]. rewrite alnum_dec by assumption.
        replace (k - 48 <? b) with true by lia. now rewrite IH. }
    rewrite (Sc 0 ds m D). destruct ds as [|d ds]; [inversion D|]. cbn [length].
    replace (two63 - 1 <? m) with false by lia. cbn [Nat.eqb].
    replace (e =? ERANGE) with false by lia. rewrite Z.mul_1_r. unfold chk64.
    replace (int64b m) with true; [reflexivity|]. unfold int64b, two63 in *. lia.
  - intros (v & H). pose proof (text_of_digits b _ v ltac:(lia) Fp H c) as X.
    rewrite in_app_iff in X. specialize (X (or_intror (or_introl eq_refl))). lia.
Qed.
Print Assumptions C50_large_digit_refuted.

Example C50_large_digit_example :
  digits decimal_of False 2 0 [49] 1 /\ int_bytes 0 [49; 50] 2 = (Ok 1, 0).
Proof. split; [|vm_compute; reflexivity]. apply (dg_last decimal_of False 2 0 49 1); [now apply (de_dec 49)|lia]. Qed.

(** Everything after a NUL byte is ignored. *)
Theorem C50_nul_refuted : forall errno n rest, errno <> ERANGE -> - two63 < n < two63 ->
  int_bytes errno (FmtModel.put_int n ++ 0 :: rest) 10 = (Ok n, errno) /\
  ~ exists v, py_int_bytes 10 (FmtModel.put_int n ++ 0 :: rest) v.
Proof.
  intros e n rest He R. split.
  2:{ intros (v & H). apply (no_nul_in_text _ _ _ H), in_app_iff. right; now left. }
  assert (I : int64 n) by (unfold int64; lia).
  assert (D : forall k t, FmtSpec.py_nat_str k t -> Forall is_dec t).
  { intros k t (F & _). exact F. }
  assert (Shape : exists sg t, FmtModel.put_int n = sg ++ t /\ (sg = [] \/ sg = [45]) /\
            Forall is_dec t /\ t <> []).
  { assert (NE : forall k t, FmtSpec.py_nat_str k t -> t <> []).
    { intros k t (_ & _ & [->|(d & t' & -> & _)]); discriminate. }
    destruct (FmtProofs.put_int_ok n I) as [(_ & P)|(_ & t & -> & P)].
    - exists [], (FmtModel.put_int n). repeat split; eauto.
    - exists [45], t. repeat split; eauto. }
  destruct Shape as (sg & t & Es & Hsg & Ft & NE).
  assert (F1 : Forall byte1 (FmtModel.put_int n)).
  { rewrite Es. apply Forall_app. split.
    - destruct Hsg as [->| ->]; repeat constructor; unfold byte1; lia.
    - eapply Forall_impl; [|exact Ft]. unfold is_dec, byte1. lia. }
  destruct (C50_str_round_trip_partial e n He R) as (_ & H & _).
  unfold int_bytes, string_to_int64 in H |- *.
  destruct (int_start (FmtModel.put_int n) 10) as [[[p b'] sgn]| | |] eqn:E; try discriminate.
  rewrite (int_start_nul (FmtModel.put_int n) rest 10 p b' sgn F1); [exact H| |exact E].
  intros c s' X. rewrite Es in X. destruct t as [|d t _] using rev_ind; [congruence|].
  rewrite app_assoc in X. apply app_inj_tail in X. destruct X as [_ <-].
  apply Forall_app in Ft. destruct Ft as [_ Fd]. inversion Fd as [|? ? Hd]. unfold is_dec, bytes_space in *. lia.
Qed.
Print Assumptions C50_nul_refuted.

(** Letters are never accepted as digits, so no base above 10 works beyond the digit 9, and
    no underscore between digits. *)
Theorem C50_letters_refuted : forall errno base s,
  Forall (fun c => 0 < c < 256) s ->
  (exists c, In c s /\ (65 <= c <= 90 \/ 97 <= c <= 122) /\ ~ In c [120; 88; 111; 79; 98; 66]) \/
  (In 95 s /\ forall c, In c s -> ~ In c [120; 88; 111; 79; 98; 66]) ->
  forall v, fst (int_bytes errno s base) <> Ok v.
Proof.
  intros e b s F [(c & Hc & Hl & Hn)|(Hu & Hn)].
  - apply (int_rejects e s b c F Hc).
    + unfold bytes_space. lia.
    + lia.
    + lia.
    + lia.
    + unfold is_dec. lia.
    + intros k P. apply Hn. inversion P; cbn; auto 10.
  - apply int_rejects_under; [exact F|exact Hu|]. intros c k Hc P. apply (Hn c Hc).
    inversion P; cbn; auto 10.
Qed.
Print Assumptions C50_letters_refuted.

(** int("ff", 16) is 255 and int("1_0") is 10 in Python; int("0", 0) is 0; a str may have a
    separator character in front. *)
Theorem C50_python_literals_refuted :
  (py_int_bytes 16 [102; 102] 255 /\ fst (int_bytes 0 [102; 102] 16) = Exn CheckFailed) /\
  (py_int_bytes 10 [49; 95; 48] 10 /\ fst (int_bytes 0 [49; 95; 48] 10) = Exn CheckFailed) /\
  (py_int_bytes 0 [48] 0 /\ fst (int_bytes 0 [48] 0) = Exn RuntimeError) /\
  (py_int_str 10 [28; 55] 7 /\ fst (int_str 0 [28; 55] 10) = Exn CheckFailed).
Proof.
  repeat split; try (vm_compute; reflexivity).
  - exists [], [], [102; 102], [], 255. repeat split; try constructor; [|now split].
    split; [lia|]. left.
    apply (dg_next digit_of True 16 0 102 15); [apply (do_low 102); lia|lia|].
    apply (dg_last digit_of True 16 15 102 15); [apply (do_low 102); lia|lia].
  - exists [], [], [49; 95; 48], [], 10. repeat split; try constructor; [|now split].
    split; [lia|]. left.
    apply (dg_under digit_of True 10 0 49 1); [exact Logic.I|apply (do_dec 49); lia|lia|].
    apply (dg_last digit_of True 10 1 48 0); [apply (do_dec 48); lia|lia].
  - exists [], [], [48], [], 0. split; [reflexivity|]. split; [constructor|]. split; [constructor|].
    split; [|now left]. right. split; [reflexivity|]. right. split; [|now left].
    apply (dg_last digit_of True 10 0 48 0); [apply (do_dec 48); lia|lia].
  - exists [28], [], [55], [], 7. split; [reflexivity|].
    split; [repeat constructor; unfold str_space; lia|]. split; [constructor|].
    split; [|now left]. left. split; [lia|]. left.
    apply (dg_last digit_of True 10 0 55 7); [apply (do_dec 55); lia|lia].
Qed.
Print Assumptions C50_python_literals_refuted.

(** ** float() *)

(** float(s) is what the C library reads at the start of [s]: whatever follows is ignored. *)
Theorem C50_float_is_strtod : forall F (strtod : list Z -> F * nat * bool) errno s,
  ~ In 0 s -> s <> [] -> errno <> ERANGE ->
  match strtod s with
  | (d, S _, false) => string_to_float64 strtod errno s = (Ok d, errno)
  | (_, O, false) => string_to_float64 strtod errno s = (Exn RuntimeError, errno)
  | (_, _, true) => string_to_float64 strtod errno s = (Exn RuntimeError, ERANGE)
  end.
Proof.
  intros F strtod e s N NE He. assert (c_string s = s).
  { clear NE. induction s as [|c s IH]; [reflexivity|]. cbn.
    destruct (Z.eqb_spec c 0) as [->|]; [exfalso; apply N; now left|].
    rewrite IH; [reflexivity|]. intros X. apply N. now right. }
  unfold string_to_float64. rewrite H.
  destruct s as [|c s]; [congruence|]. cbn [length Nat.eqb].
  destruct (strtod (c :: s)) as [[d n] rg]. destruct rg, n; cbn [Nat.eqb]; try reflexivity.
  replace (e =? ERANGE) with false by lia. reflexivity.
Qed.
Print Assumptions C50_float_is_strtod.

(** float("1.5abc") is 1.5, where Python raises: strtod reads three characters. *)
Theorem C50_float_trailing_refuted : forall F (strtod : list Z -> F * nat * bool) d errno,
  strtod [49; 46; 53; 97; 98; 99] = (d, 3%nat, false) -> errno <> ERANGE ->
  string_to_float64 strtod errno [49; 46; 53; 97; 98; 99] = (Ok d, errno) /\
  ~ py_float_text [49; 46; 53; 97; 98; 99].
Proof.
  intros F strtod d e H He. split.
  - pose proof (C50_float_is_strtod F strtod e [49; 46; 53; 97; 98; 99]) as X.
    rewrite H in X. apply X; [cbn; lia|discriminate|exact He].
  - intros X. apply (float_chars _ X). cbn. tauto.
Qed.
Print Assumptions C50_float_trailing_refuted.

(** "1.5e3" is a float for Python. *)
Example C50_float_example : py_float_text [49; 46; 53; 101; 51].
Proof.
  exists [], [], [49; 46; 53; 101; 51], []. split; [reflexivity|]. split; [constructor|].
  split; [constructor|]. split; [now left|]. left.
  exists [49], [46], [53], [101; 51]. split; [reflexivity|].
  split; [right; constructor; lia|]. split; [right; constructor; lia|].
  split; [|split; [now right|left; discriminate]].
  right. exists 101, [], [51]. split; [reflexivity|]. split; [now left|]. split; [now left|].
  constructor. lia.
Qed.
