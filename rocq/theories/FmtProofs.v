(** Proofs about format and escaping. *)
From Verif Require Import Base Utf8Model Utf8Spec Utf8Proofs FmtModel FmtSpec.
Ltac Zify.zify_post_hook ::= Z.to_euclidean_division_equations.

(** ** Decimal printing *)

Lemma dec_value_cons d ds :
  dec_value (d :: ds) = (d - 48) * 10 ^ Z.of_nat (length ds) + dec_value ds.
Proof.
  unfold dec_value. cbn [fold_left].
  assert (G : forall l v, fold_left (fun v d => 10 * v + (d - 48)) l v =
                          v * 10 ^ Z.of_nat (length l) + fold_left (fun v d => 10 * v + (d - 48)) l 0).
  { induction l as [|x l IH]; intros v; cbn [fold_left length]; [change (10 ^ Z.of_nat 0) with 1; lia|].
    rewrite IH. rewrite (IH (10 * 0 + _)).
    rewrite Nat2Z.inj_succ, Z.pow_succ_r by lia. ring. }
  rewrite G. ring.
Qed.

Lemma dec_digits_ok fuel n acc : 0 <= n -> n < 10 ^ Z.of_nat fuel -> (0 < fuel)%nat ->
  exists ds, dec_digits fuel n acc = ds ++ acc /\ Forall (fun d => 48 <= d <= 57) ds /\
    dec_value ds = n /\ (ds = [48] \/ exists d s', ds = d :: s' /\ d <> 48).
Proof.
  revert n acc. induction fuel as [|f IH]; intros n acc Hn Hlt Hf; [lia|].
  cbn [dec_digits]. destruct (Z.ltb_spec n 10) as [E|E].
  { exists [48 + n mod 10]. rewrite Z.mod_small by lia. repeat split.
    - repeat constructor; lia.
    - unfold dec_value; cbn [fold_left]; lia.
    - destruct (Z.eq_dec n 0); [left; subst; reflexivity|right; eexists _, _; split; [reflexivity|lia]]. }
  rewrite Nat2Z.inj_succ, Z.pow_succ_r in Hlt by lia.
  destruct f as [|f]; [change (10 ^ Z.of_nat 0) with 1 in Hlt; lia|].
  destruct (IH (n / 10) (48 + n mod 10 :: acc)) as (ds & -> & Hd & Hv & Hl); [lia|lia|lia|].
  exists (ds ++ [48 + n mod 10]). rewrite <- app_assoc. repeat split.
  - apply Forall_app; split; [assumption|repeat constructor; lia].
  - unfold dec_value in *. rewrite fold_left_app. cbn [fold_left]. rewrite Hv. lia.
  - right. destruct Hl as [->|(d & s' & -> & Hd0)].
    + unfold dec_value in Hv; cbn [fold_left] in Hv. lia.
    + eexists _, _; split; [reflexivity|assumption].
Qed.

Lemma put_int_ok z : int64 z -> py_int_str z (put_int z).
Proof.
  unfold int64, two63. intros Hz. unfold put_int, py_int_str, py_nat_str.
  change (Z.of_nat 20) with 20 in *.
  destruct (Z.ltb_spec z 0) as [E|E].
  - right. split; [lia|]. destruct (dec_digits_ok 20 (- z) []) as (ds & He & Hd & Hv & Hl); [lia| |lia|].
    { change (10 ^ Z.of_nat 20) with 100000000000000000000. lia. }
    rewrite He, app_nil_r. exists ds. auto.
  - left. split; [lia|]. destruct (dec_digits_ok 20 z []) as (ds & He & Hd & Hv & Hl); [lia| |lia|].
    { change (10 ^ Z.of_nat 20) with 100000000000000000000. lia. }
    rewrite He, app_nil_r. auto.
Qed.

Lemma dec_value_bounds s : Forall (fun d => 48 <= d <= 57) s -> 0 <= dec_value s < 10 ^ Z.of_nat (length s).
Proof.
  induction 1 as [|d s Hd Hs IH]; [cbn; lia|].
  rewrite dec_value_cons. cbn [length]. rewrite Nat2Z.inj_succ, Z.pow_succ_r by lia.
  assert (0 < 10 ^ Z.of_nat (length s)) by (apply Z.pow_pos_nonneg; lia).
  pose proof (Z.mul_le_mono_nonneg_r 0 (d - 48) (10 ^ Z.of_nat (length s))).
  pose proof (Z.mul_le_mono_nonneg_r (d - 48) 9 (10 ^ Z.of_nat (length s))). lia.
Qed.

(** The decimal form of a number is unique. *)
Lemma py_nat_str_unique n s t : py_nat_str n s -> py_nat_str n t -> s = t.
Proof.
  assert (same : forall s t, length s = length t -> Forall (fun d => 48 <= d <= 57) s ->
            Forall (fun d => 48 <= d <= 57) t -> dec_value s = dec_value t -> s = t).
  { induction s0 as [|a s0 IH]; intros [|b t0] Hl Hs Ht Hv; try discriminate; [reflexivity|].
    inversion Hs; inversion Ht; subst. injection Hl as Hl.
    rewrite !dec_value_cons, <- Hl in Hv.
    pose proof (dec_value_bounds s0 ltac:(assumption)). pose proof (dec_value_bounds t0 ltac:(assumption)).
    rewrite <- Hl in *.
    assert (a = b).
    { destruct (Z.lt_trichotomy a b) as [L|[L|L]]; [|assumption|].
      - pose proof (Z.mul_le_mono_nonneg_r (a - 48 + 1) (b - 48) (10 ^ Z.of_nat (length s0))). lia.
      - pose proof (Z.mul_le_mono_nonneg_r (b - 48 + 1) (a - 48) (10 ^ Z.of_nat (length s0))). lia. }
    subst. f_equal. apply IH; auto. lia. }
  assert (longer : forall s t, Forall (fun d => 48 <= d <= 57) s -> Forall (fun d => 48 <= d <= 57) t ->
            (length s < length t)%nat -> (exists d t', t = d :: t' /\ d <> 48) -> dec_value s < dec_value t).
  { intros s0 t0 Hs Ht Hl (d & t' & -> & Hd). inversion Ht; subst. rewrite dec_value_cons.
    pose proof (dec_value_bounds s0 Hs). pose proof (dec_value_bounds t' ltac:(assumption)).
    cbn [length] in Hl.
    pose proof (Z.pow_le_mono_r 10 (Z.of_nat (length s0)) (Z.of_nat (length t'))).
    pose proof (Z.mul_le_mono_nonneg_r 1 (d - 48) (10 ^ Z.of_nat (length t'))). lia. }
  intros (Hs & Hsv & Hs0) (Ht & Htv & Ht0).
  destruct (Nat.lt_trichotomy (length s) (length t)) as [L|[L|L]].
  - destruct Ht0 as [->|Ht0].
    + destruct s as [|x s]; [|cbn in L; lia]. destruct Hs0 as [?|(? & ? & ? & ?)]; discriminate.
    + pose proof (longer s t Hs Ht L Ht0). lia.
  - apply same; auto. lia.
  - destruct Hs0 as [->|Hs0].
    + destruct t as [|x t]; [|cbn in L; lia]. destruct Ht0 as [?|(? & ? & ? & ?)]; discriminate.
    + pose proof (longer t s Ht Hs L Hs0). lia.
Qed.
Lemma py_int_str_unique n s t : py_int_str n s -> py_int_str n t -> s = t.
Proof.
  intros [(H1 & H2)|(H1 & s' & -> & H2)] [(H3 & H4)|(H3 & t' & -> & H4)]; try lia.
  - eapply py_nat_str_unique; eassumption.
  - f_equal; eapply py_nat_str_unique; eassumption.
Qed.

(** ** Format *)

Lemma format_acc src lb rb args out :
  format_loop src lb rb args out = rmap (app out) (format_loop src lb rb args []).
Proof.
  revert lb rb args out. induction src as [|c src IH]; intros lb rb args out; cbn [format_loop].
  { destruct lb, rb; cbn [rmap]; rewrite ?app_nil_r; reflexivity. }
  assert (T : forall lb rb args x, format_loop src lb rb args (out ++ x) =
              rmap (app out) (format_loop src lb rb args x)).
  { intros. rewrite IH, (IH _ _ _ x). rewrite rmap_rmap. apply rmap_ext. intros; rewrite app_assoc; reflexivity. }
  destruct lb.
  - destruct (c =? 123); [apply T|]. destruct (c =? 125); [|reflexivity].
    destruct args as [|a args]; [reflexivity|].
    destruct (put_any a); cbn [bind]; try reflexivity. apply T.
  - destruct rb.
    + destruct (c =? 125); [apply T|reflexivity].
    + destruct (c =? 123); [apply IH|]. destruct (c =? 125); [apply IH|apply T].
Qed.

(** Bytes that are not braces are copied. *)
Lemma format_plain bs src args : (forall b, In b bs -> b <> 123 /\ b <> 125) ->
  format_loop (bs ++ src) false false args [] = rmap (app bs) (format_loop src false false args []).
Proof.
  induction bs as [|b bs IH]; intros H.
  { cbn [app]. destruct (format_loop src false false args []); reflexivity. }
  cbn [app format_loop]. destruct (H b (or_introl eq_refl)) as [H1 H2].
  destruct (Z.eqb_spec b 123); [contradiction|]. destruct (Z.eqb_spec b 125); [contradiction|].
  rewrite format_acc, IH by (intros; apply H; right; assumption).
  rewrite rmap_rmap. apply rmap_ext. reflexivity.
Qed.

Lemma encode_one_plain c : code_point c -> c <> 123 -> c <> 125 ->
  forall b, In b (greedy_encode_one c) -> b <> 123 /\ b <> 125.
Proof.
  unfold code_point. intros Hc H1 H2 b. rewrite encode_one_arith by lia. unfold enc_arith.
  destruct (c <? 128) eqn:E1; [intros [<-|[]]; auto|].
  destruct (c <=? 2047) eqn:E2; [intros Hb; cbn [In] in Hb; lia|].
  destruct (c <=? 65535) eqn:E3; [intros Hb; cbn [In] in Hb; lia|].
  destruct (c <=? 1114111) eqn:E4; intros Hb; cbn [In] in Hb; lia.
Qed.

Lemma greedy_encode_app s t : greedy_encode (s ++ t) = greedy_encode s ++ greedy_encode t.
Proof. induction s as [|x s IH]; cbn [app greedy_encode]; [reflexivity|]. rewrite IH, app_assoc. reflexivity. Qed.

Lemma greedy_encode_ascii s : Forall (fun c => 0 <= c < 128) s -> greedy_encode s = s.
Proof.
  induction 1 as [|c s Hc Hs IH]; cbn [greedy_encode]; [reflexivity|]. rewrite IH.
  unfold greedy_encode_one. destruct (Z.ltb_spec c 128); [reflexivity|lia].
Qed.

(** What an argument prints: the UTF-8 form of [t]. *)
Definition prints (a : fmt_arg) (t : list Z) : Prop :=
  put_any a = Ok (greedy_encode t) /\ Forall code_point t.

Lemma put_view_id b : ~ In 0 b -> put_view b = b.
Proof.
  induction b as [|c b IH]; intros H; [reflexivity|].
  cbn [put_view flat_map]. unfold put_view in IH. rewrite IH by (intros ?; apply H; right; assumption).
  destruct (Z.eqb_spec c 0) as [->|]; [exfalso; apply H; left; reflexivity|reflexivity].
Qed.

Lemma encode_no_nul s : Forall code_point s -> ~ In 0 s -> ~ In 0 (greedy_encode s).
Proof.
  induction 1 as [|c s Hc Hs IH]; intros H; cbn [greedy_encode]; [intros []|].
  rewrite in_app_iff. intros [E|E].
  - unfold code_point in Hc. rewrite encode_one_arith in E by lia. unfold enc_arith in E.
    destruct (c <? 128) eqn:E1; [destruct E as [->|[]]; apply H; left; reflexivity|].
    destruct (c <=? 2047) eqn:E2; [cbn [In] in E; lia|].
    destruct (c <=? 65535) eqn:E3; [cbn [In] in E; lia|].
    destruct (c <=? 1114111) eqn:E4; cbn [In] in E; lia.
  - revert E. apply IH. intros ?; apply H; right; assumption.
Qed.

Lemma prints_str s : Forall code_point s -> ~ In 0 s -> prints (AStr s) s.
Proof.
  intros H H0. split; [|assumption]. cbn [put_any]. rewrite utf8_encode_ok. cbn [bind].
  rewrite put_view_id by (apply encode_no_nul; assumption). reflexivity.
Qed.

Lemma int_str_ascii n s : py_int_str n s -> Forall (fun c => 0 <= c < 128) s.
Proof.
  assert (G : forall n s, py_nat_str n s -> Forall (fun c => 0 <= c < 128) s).
  { intros n0 s0 (H & _). eapply Forall_impl; [|exact H]. cbn; lia. }
  intros [(_ & H)|(_ & s' & -> & H)]; [eauto|]. constructor; [lia|eauto].
Qed.

Lemma prints_int z t : int64 z -> py_int_str z t -> prints (AInt z) t.
Proof.
  intros Hz Ht. pose proof (py_int_str_unique _ _ _ Ht (put_int_ok z Hz)) as ->.
  pose proof (int_str_ascii _ _ (put_int_ok z Hz)) as Ha. split.
  - cbn [put_any]. rewrite greedy_encode_ascii by assumption. reflexivity.
  - eapply Forall_impl; [|exact Ha]. unfold code_point; cbn; lia.
Qed.

(** The loop on an encoded format string. *)
Lemma format_loop_spec f args strs : Forall code_point f -> Forall2 prints args strs ->
  (exists r, py_format f strs r /\ Forall code_point r /\
             format_loop (greedy_encode f) false false args [] = Ok (greedy_encode r)) \/
  ((forall r, ~ py_format f strs r) /\
   format_loop (greedy_encode f) false false args [] = Exn CheckFailed).
Proof.
  remember (length f) as n eqn:Hn. assert (Hle : (length f <= n)%nat) by lia. clear Hn.
  revert f args strs Hle. induction n as [|n IH]; intros f args strs Hle Hf Ha.
  { destruct f; [|cbn in Hle; lia]. left. exists []. repeat constructor. }
  destruct f as [|c f]. { left. exists []. repeat constructor. }
  inversion Hf as [|? ? Hc Hf']; subst. cbn [length] in Hle.
  cbn [greedy_encode].
  destruct (Z.eq_dec c 123) as [->|N1].
  { change (greedy_encode_one 123) with [123]. cbn [app format_loop Z.eqb Pos.eqb].
    destruct f as [|d f].
    { right. split; [|reflexivity]. intros r Hr. inversion Hr; subst; congruence. }
    inversion Hf' as [|? ? Hd Hf'']; subst. cbn [length] in Hle. cbn [greedy_encode].
    destruct (Z.eq_dec d 123) as [->|M1].
    { change (greedy_encode_one 123) with [123]. cbn [app format_loop Z.eqb Pos.eqb].
      rewrite format_acc.
      destruct (IH f args strs ltac:(lia) Hf'' Ha) as [(r & Hr & Hcp & ->)|(Hno & ->)].
      - left. exists (123 :: r). split; [constructor; assumption|]. split; [constructor; [unfold code_point; lia|assumption]|].
        reflexivity.
      - right. split; [|reflexivity]. intros r Hr.
        inversion Hr; subst; try congruence. eapply Hno; eassumption. }
    destruct (Z.eq_dec d 125) as [->|M2].
    { change (greedy_encode_one 125) with [125]. cbn [app format_loop Z.eqb Pos.eqb].
      destruct Ha as [|a t args strs Hat Ha].
      { right. split; [|reflexivity]. intros r Hr. inversion Hr; subst; congruence. }
      destruct Hat as [Hp Ht]. rewrite Hp. cbn [bind]. rewrite format_acc.
      destruct (IH f args strs ltac:(lia) Hf'' Ha) as [(r & Hr & Hcp & ->)|(Hno & ->)].
      - left. exists (t ++ r). split; [constructor; assumption|]. split; [apply Forall_app; auto|].
        cbn [rmap]. rewrite greedy_encode_app. reflexivity.
      - right. split; [|reflexivity]. intros r Hr.
        inversion Hr; subst; try congruence. eapply Hno; eassumption. }
    right. split.
    { intros r Hr. inversion Hr; subst; congruence. }
    destruct (encode_one_complete d Hd) as (b & conts & He & _ & _ & _).
    destruct (encode_one_plain d Hd M1 M2 b) as [X1 X2]; [rewrite He; left; reflexivity|].
    rewrite He. cbn [app format_loop].
    destruct (Z.eqb_spec b 123); [contradiction|]. destruct (Z.eqb_spec b 125); [contradiction|]. reflexivity. }
  destruct (Z.eq_dec c 125) as [->|N2].
  { change (greedy_encode_one 125) with [125]. cbn [app format_loop Z.eqb Pos.eqb].
    destruct f as [|d f].
    { right. split; [|reflexivity]. intros r Hr. inversion Hr; subst; congruence. }
    inversion Hf' as [|? ? Hd Hf'']; subst. cbn [length] in Hle. cbn [greedy_encode].
    destruct (Z.eq_dec d 125) as [->|M2].
    { change (greedy_encode_one 125) with [125]. cbn [app format_loop Z.eqb Pos.eqb].
      rewrite format_acc.
      destruct (IH f args strs ltac:(lia) Hf'' Ha) as [(r & Hr & Hcp & ->)|(Hno & ->)].
      - left. exists (125 :: r). split; [constructor; assumption|]. split; [constructor; [unfold code_point; lia|assumption]|].
        reflexivity.
      - right. split; [|reflexivity]. intros r Hr.
        inversion Hr; subst; try congruence. eapply Hno; eassumption. }
    right. split.
    { intros r Hr. inversion Hr; subst; congruence. }
    destruct (encode_one_complete d Hd) as (b & conts & He & _ & _ & HC).
    rewrite He. cbn [app format_loop].
    assert (b <> 125).
    { destruct (Z.eq_dec d 123) as [->|M1].
      - change (greedy_encode_one 123) with [123] in He. congruence.
      - apply (encode_one_plain d Hd M1 M2 b). rewrite He; left; reflexivity. }
    destruct (Z.eqb_spec b 125); [contradiction|]. reflexivity. }
  rewrite format_plain by (apply encode_one_plain; assumption).
  destruct (IH f args strs ltac:(lia) Hf' Ha) as [(r & Hr & Hcp & ->)|(Hno & ->)].
  - left. exists (c :: r). split; [constructor; assumption|]. split; [constructor; assumption|]. reflexivity.
  - right. split; [|reflexivity]. intros r Hr. inversion Hr; subst; try congruence. eapply Hno; eassumption.
Qed.

Lemma py_format_functional f args r r' : py_format f args r -> py_format f args r' -> r = r'.
Proof.
  intros H. revert r'. induction H; intros r' H'; inversion H'; subst; try congruence; f_equal; auto.
Qed.

Lemma str_format_spec f args strs : Forall code_point f -> Forall2 prints args strs ->
  (forall r, py_format f strs r -> str_format f args = Ok r) /\
  ((forall r, ~ py_format f strs r) -> str_format f args = Exn CheckFailed).
Proof.
  intros Hf Ha. unfold str_format. rewrite utf8_encode_ok. cbn [bind].
  destruct (format_loop_spec f args strs Hf Ha) as [(r & Hr & Hcp & ->)|(Hno & ->)].
  - cbn [bind]. rewrite (utf8_decode_gseq r) by (apply greedy_encode_gseq; assumption).
    split; [|intros Hno; exfalso; eapply Hno; eassumption].
    intros r' Hr'. f_equal. eapply py_format_functional; eassumption.
  - split; [|reflexivity]. intros r Hr. exfalso; eapply Hno; eassumption.
Qed.

(** ** Literals *)

Lemma hex_value_fun c d d' : hex_value c d -> hex_value c d' -> d = d'.
Proof. inversion 1; inversion 1; subst; lia. Qed.
Lemma oct_value_fun c d d' : oct_value c d -> oct_value c d' -> d = d'.
Proof. intros [_ ->] [_ ->]. reflexivity. Qed.
Lemma digits_value_fun base (dv : Z -> Z -> Prop) : (forall c d d', dv c d -> dv c d' -> d = d') ->
  forall ds acc v v', digits_value base dv acc ds v -> digits_value base dv acc ds v' -> v = v'.
Proof.
  intros F. induction ds as [|c ds IH]; intros acc v v' H H'; inversion H; inversion H'; subst; [congruence|].
  match goal with A : dv c ?d, B : dv c ?d' |- _ => pose proof (F _ _ _ A B); subst end. eauto.
Qed.
Lemma digits_value_all base dv acc ds v : digits_value base dv acc ds v -> Forall (fun c => exists d, dv c d) ds.
Proof. induction 1; constructor; eauto. Qed.

(** Two ways of cutting a string into digits and a rest agree if both cuts are maximal. *)
Lemma munch_len (P : Z -> Prop) ds s ds' s' : Forall P ds' -> Forall P ds -> ds ++ s = ds' ++ s' ->
  ~ starts_with_in P s -> (length ds' <= length ds)%nat.
Proof.
  intros H' H He Hs. revert ds' H' He. induction H as [|c ds Hc Hds IH]; intros ds' H' He.
  - destruct ds' as [|c' ds']; [cbn; lia|]. exfalso. apply Hs. cbn in He. subst s. inversion H'; subst.
    eexists _, _; split; [reflexivity|assumption].
  - destruct ds' as [|c' ds']; [cbn; lia|]. cbn in He. injection He as <- He. inversion H'; subst.
    cbn [length]. specialize (IH ds' ltac:(assumption) He). lia.
Qed.
Lemma app_same_len {A} (a b c d : list A) : a ++ b = c ++ d -> length a = length c -> a = c /\ b = d.
Proof.
  revert c. induction a as [|x a IH]; intros [|y c] He Hl; try discriminate; [auto|].
  cbn in He. injection He as <- He. injection Hl as Hl. destruct (IH _ He Hl); subst; auto.
Qed.

Definition hexok_fun (hexok : list Z -> list Z -> Prop) : Prop :=
  forall ds s ds' s', Forall (fun c => exists d, hex_value c d) ds ->
    Forall (fun c => exists d, hex_value c d) ds' -> hexok ds s -> hexok ds' s' ->
    ds ++ s = ds' ++ s' -> length ds = length ds'.
Lemma cpp_hexok_fun : hexok_fun cpp_hex_ok.
Proof.
  intros ds s ds' s' H H' (_ & N) (_ & N') He. apply Nat.le_antisymm.
  - eapply munch_len; [exact H|exact H'|symmetry; exact He|exact N'].
  - eapply munch_len; [exact H'|exact H|exact He|exact N].
Qed.
Lemma py_hexok_fun : hexok_fun py_hex_ok.
Proof. intros ds s ds' s' _ _ H H' _. unfold py_hex_ok in *. congruence. Qed.

Lemma oct_all ds v acc : digits_value 8 oct_value acc ds v -> Forall octal_digit ds.
Proof. intros H. apply digits_value_all in H. eapply Forall_impl; [|exact H]. intros c (d & Hc & _). exact Hc. Qed.

Lemma literal_functional hexok q : hexok_fun hexok -> forall s b b',
  literal hexok q s b -> literal hexok q s b' -> b = b'.
Proof.
  intros HF s b b' H. revert b'.
  induction H as [|c s b Hr Hb Hq H IH|e v s b He H IH|ds v s b Hl Hm Hd Hv H IH|ds v s b Hk Hd Hv H IH]; intros b' H'.
  - inversion H'; subst; reflexivity.
  - inversion H'; subst; try congruence. f_equal; auto.
  - inversion H' as [|c0 s0 b0 ? ? ?|e0 v0 s0 b0 He0|ds0 v0 s0 b0 Hl0 Hm0 Hd0 Hv0 H0 E|ds0 v0 s0 b0 Hk0 Hd0 Hv0 H0 E]; subst; try congruence.
    + f_equal; [|auto]. inversion He; subst; inversion He0; subst; try reflexivity; discriminate.
    + exfalso. destruct ds0 as [|x ds0]; [cbn in Hl0; lia|]. apply oct_all in Hd0. inversion Hd0; subst.
      cbn in E. injection E as -> _. unfold octal_digit in *. inversion He; subst; lia.
    + exfalso. inversion He; subst; lia.
  - inversion H' as [|c0 s0 b0 ? ? ?|e0 v0 s0 b0 He0|ds0 v0 s0 b0 Hl0 Hm0 Hd0 Hv0 H0 E|ds0 v0 s0 b0 Hk0 Hd0 Hv0 H0 E]; subst; try congruence.
    + exfalso. destruct ds as [|x ds]; [cbn in Hl; lia|]. apply oct_all in Hd. inversion Hd; subst.
      match goal with E : _ :: _ = (_ :: _) ++ _ |- _ => cbn in E; injection E as -> _ end.
      unfold octal_digit in *. inversion He0; subst; lia.
    + pose proof (oct_all _ _ _ Hd) as A1. pose proof (oct_all _ _ _ Hd0) as A2.
      assert (length ds = length ds0).
      { apply Nat.le_antisymm.
        - destruct Hm0 as [X|N]; [lia|]. eapply munch_len; [exact A1|exact A2|exact E|exact N].
        - destruct Hm as [X|N]; [lia|]. eapply munch_len; [exact A2|exact A1|symmetry; exact E|exact N]. }
      destruct (app_same_len _ _ _ _ E) as [-> ->]; [congruence|].
      f_equal; [|auto]. eapply digits_value_fun; [exact oct_value_fun|eassumption|eassumption].
    + exfalso. destruct ds as [|x ds]; [cbn in Hl; lia|]. apply oct_all in Hd. inversion Hd; subst.
      cbn in E. injection E as E _. unfold octal_digit in *. lia.
  - inversion H' as [|c0 s0 b0 ? ? ?|e0 v0 s0 b0 He0|ds0 v0 s0 b0 Hl0 Hm0 Hd0 Hv0 H0 E|ds0 v0 s0 b0 Hk0 Hd0 Hv0 H0 E]; subst; try congruence.
    + exfalso. inversion He0; subst; lia.
    + exfalso. destruct ds0 as [|x ds0]; [cbn in Hl0; lia|]. apply oct_all in Hd0. inversion Hd0; subst.
      cbn in E. injection E as -> _. unfold octal_digit in *. lia.
    + pose proof (digits_value_all _ _ _ _ _ Hd) as A1. pose proof (digits_value_all _ _ _ _ _ Hd0) as A2.
      destruct (app_same_len _ _ _ _ E) as [-> ->].
      { symmetry. apply (HF _ _ _ _ A1 A2 Hk Hk0). symmetry; exact E. }
      f_equal; [|auto]. eapply digits_value_fun; [exact hex_value_fun|eassumption|eassumption].
Qed.

(** ** BytesEscape *)

Lemma hex_digit_value i : 0 <= i < 16 -> hex_value (hex_digit i) i.
Proof.
  intros H. unfold hex_digit. destruct (Z.ltb_spec i 10).
  - replace i with (48 + i - 48) at 2 by lia. constructor; lia.
  - replace i with (55 + i - 55) at 2 by lia. apply hv_upper; lia.
Qed.

Lemma bytes_escape_cons o c b : bytes_escape o (c :: b) = bytes_escape_one o c ++ bytes_escape o b.
Proof. reflexivity. Qed.

Lemma land_3 u : Z.land u 3 = u mod 4.
Proof. change 3 with (Z.ones 2). rewrite Z.land_ones by lia. reflexivity. Qed.

(** One escaped byte reads back as that byte, in front of anything, provided hexadecimal
    escapes of two digits are read as such. *)
Lemma escape_one_literal (hexok : list Z -> list Z -> Prop) q o c s b : is_byte c -> (q = 34 \/ (q = 39 /\ c <> 39)) ->
  (o = false -> forall x y, hexok [x; y] s) -> literal hexok q s b ->
  literal hexok q (bytes_escape_one o c ++ s) (c :: b).
Proof.
  unfold is_byte. intros Hc Hq Hh H. unfold bytes_escape_one.
  destruct ((c >=? 32) && (c <=? 126) && negb (c =? 92) && negb (c =? 34)) eqn:E.
  { cbn [app]. constructor; auto; lia. }
  cbn [app].
  destruct (Z.eqb_spec c 34) as [->|]; [cbn [app]; constructor; [constructor|assumption]|].
  destruct (Z.eqb_spec c 92) as [->|]; [cbn [app]; constructor; [constructor|assumption]|].
  destruct (Z.eqb_spec c 9) as [->|]; [cbn [app]; constructor; [constructor|assumption]|].
  destruct (Z.eqb_spec c 13) as [->|]; [cbn [app]; constructor; [constructor|assumption]|].
  destruct (Z.eqb_spec c 10) as [->|]; [cbn [app]; constructor; [constructor|assumption]|].
  destruct (Z.eqb_spec c 11) as [->|]; [cbn [app]; constructor; [constructor|assumption]|].
  destruct (Z.eqb_spec c 8) as [->|]; [cbn [app]; constructor; [constructor|assumption]|].
  destruct (Z.eqb_spec c 12) as [->|]; [cbn [app]; constructor; [constructor|assumption]|].
  destruct (Z.eqb_spec c 7) as [->|]; [cbn [app]; constructor; [constructor|assumption]|].
  destruct (Z.eqb_spec c 63) as [->|]; [lia|].
  destruct o.
  - apply li_octal; [cbn; lia|left; reflexivity| |lia|assumption].
    rewrite land_3, !land_7, !Z.shiftr_div_pow2 by lia. change (2 ^ 6) with 64. change (2 ^ 3) with 8.
    eapply dg_cons; [split; [|reflexivity]; unfold octal_digit; lia|].
    eapply dg_cons; [split; [|reflexivity]; unfold octal_digit; lia|].
    eapply dg_cons; [split; [|reflexivity]; unfold octal_digit; lia|].
    match goal with |- digits_value _ _ ?a _ _ => replace a with c by lia end. constructor.
  - apply (li_hex hexok q [hex_digit (Z.shiftr c 4); hex_digit (Z.land c 15)]); [apply Hh; reflexivity| |lia|assumption].
    rewrite land_15, Z.shiftr_div_pow2 by lia. change (2 ^ 4) with 16.
    eapply dg_cons; [apply hex_digit_value; lia|].
    eapply dg_cons; [apply hex_digit_value; lia|].
    match goal with |- digits_value _ _ ?a _ _ => replace a with c by lia end. constructor.
Qed.

Lemma escape_octal_literal hexok b : Forall is_byte b -> literal hexok 34 (bytes_escape true b) b.
Proof.
  induction 1 as [|c b Hc Hb IH]; [constructor|]. rewrite bytes_escape_cons.
  apply escape_one_literal; auto. discriminate.
Qed.
Lemma escape_hex_py q b : Forall is_byte b -> (q = 34 \/ (q = 39 /\ ~ In 39 b)) ->
  py_bytes_literal q (bytes_escape false b) b.
Proof.
  intros H. induction H as [|c b Hc Hb IH]; intros Hq; [constructor|]. rewrite bytes_escape_cons.
  apply escape_one_literal; auto.
  - destruct Hq as [->|[-> N]]; [left; reflexivity|right; split; [reflexivity|]]. intros ->; apply N; left; reflexivity.
  - intros _ x y. reflexivity.
  - apply IH. destruct Hq as [->|[-> N]]; [left; reflexivity|right; split; [reflexivity|]].
    intros ?; apply N; right; assumption.
Qed.

Lemma bytes_escape_injective o a b : Forall is_byte a -> Forall is_byte b ->
  bytes_escape o a = bytes_escape o b -> a = b.
Proof.
  intros Ha Hb He. destruct o.
  - eapply literal_functional; [exact py_hexok_fun|apply escape_octal_literal; exact Ha|].
    rewrite He. apply escape_octal_literal; assumption.
  - eapply literal_functional; [exact py_hexok_fun|apply (escape_hex_py 34); [exact Ha|auto]|].
    rewrite He. apply escape_hex_py; auto.
Qed.

(** ** Trigraphs *)

Lemma escape_one_head o c : is_byte c ->
  (bytes_escape_one o c = [c] /\ c <> 92) \/
  exists r, bytes_escape_one o c = 92 :: r /\ (forall x, In x r -> x <> 63).
Proof.
  unfold is_byte. intros Hc. unfold bytes_escape_one.
  destruct ((c >=? 32) && (c <=? 126) && negb (c =? 92) && negb (c =? 34)) eqn:E; [left; split; [reflexivity|lia]|].
  right. eexists; split; [reflexivity|].
  assert (HX : forall i, 0 <= i < 16 -> hex_digit i <> 63).
  { intros i Hi. unfold hex_digit. destruct (Z.ltb_spec i 10); lia. }
  assert (0 <= Z.land c 15 < 16) by (rewrite land_15; lia).
  assert (0 <= Z.shiftr c 4 < 16) by (rewrite Z.shiftr_div_pow2 by lia; change (2 ^ 4) with 16; lia).
  rewrite land_3, !land_7.
  destruct (Z.eqb_spec c 34); [intros x [<-|[]]; lia|].
  destruct (Z.eqb_spec c 92); [intros x [<-|[]]; lia|].
  destruct (Z.eqb_spec c 9); [intros x [<-|[]]; lia|].
  destruct (Z.eqb_spec c 13); [intros x [<-|[]]; lia|].
  destruct (Z.eqb_spec c 10); [intros x [<-|[]]; lia|].
  destruct (Z.eqb_spec c 11); [intros x [<-|[]]; lia|].
  destruct (Z.eqb_spec c 8); [intros x [<-|[]]; lia|].
  destruct (Z.eqb_spec c 12); [intros x [<-|[]]; lia|].
  destruct (Z.eqb_spec c 7); [intros x [<-|[]]; lia|].
  destruct (Z.eqb_spec c 63); [lia|].
  destruct o; intros x Hx; cbn [In] in Hx.
  - lia.
  - destruct Hx as [<-|[<-|[<-|[]]]]; [lia|apply HX; assumption|apply HX; assumption].
Qed.

(** A string without trigraphs is unchanged; one can recognise trigraphs from the left. *)
Lemma trigraphs_id s : ~ has_trigraph s -> trigraphs s = s.
Proof.
  induction s as [|a s IH]; intros H; [reflexivity|].
  assert (Hs : ~ has_trigraph s).
  { intros (p & c & q & -> & Hc). apply H. exists (a :: p), c, q. split; [reflexivity|assumption]. }
  destruct s as [|b [|c s]]; [reflexivity|reflexivity|].
  cbn [trigraphs]. cbn [trigraphs] in IH. rewrite (IH Hs).
  destruct ((a =? 63) && (b =? 63)) eqn:E; [|reflexivity].
  destruct (trigraph_char c) eqn:Ec; [|reflexivity].
  exfalso. apply H. exists [], c, s. split; [|congruence].
  cbn [app]. replace a with 63 by lia. replace b with 63 by lia. reflexivity.
Qed.

(** Escaping introduces no trigraph. *)
Lemma escape_q o b t : Forall is_byte b -> bytes_escape o b = 63 :: t ->
  exists b', b = 63 :: b' /\ t = bytes_escape o b'.
Proof.
  intros Hb. destruct Hb as [|c b Hc Hb]; [discriminate|].
  rewrite bytes_escape_cons. destruct (escape_one_head o c Hc) as [[-> _]|(r & -> & _)]; cbn [app]; intros E; [|discriminate].
  injection E as -> <-. eauto.
Qed.
Lemma escape_tri_head o b c t : Forall is_byte b -> bytes_escape o b = 63 :: 63 :: c :: t ->
  trigraph_char c <> None -> has_trigraph b.
Proof.
  intros Hb E Hc. destruct (escape_q _ _ _ Hb E) as (b1 & -> & E1).
  inversion Hb as [|? ? _ Hb1]; subst. symmetry in E1. destruct (escape_q _ _ _ Hb1 E1) as (b2 & -> & E2).
  inversion Hb1 as [|? ? _ Hb2]; subst. destruct Hb2 as [|d b2 Hd Hb2]; [discriminate|].
  rewrite bytes_escape_cons in E2. exists [], d, b2. split; [reflexivity|].
  destruct (escape_one_head o d Hd) as [[Ed Nd]|(r & Ed & _)]; rewrite Ed in E2; cbn [app] in E2; injection E2 as -> _.
  - assumption.
  - exfalso. apply Hc. reflexivity.
Qed.
Lemma escape_no_trigraph o b : Forall is_byte b -> has_trigraph (bytes_escape o b) -> has_trigraph b.
Proof.
  intros Hb (p & c & q & E & Hc). revert p E. induction Hb as [|d b Hd Hb IH]; intros p E.
  { destruct p; discriminate. }
  destruct p as [|x p].
  { eapply escape_tri_head; [constructor; eassumption|exact E|exact Hc]. }
  assert (K : has_trigraph b -> has_trigraph (d :: b)).
  { intros (p' & c' & q' & -> & Hc'). exists (d :: p'), c', q'. split; [reflexivity|assumption]. }
  rewrite bytes_escape_cons in E.
  destruct (escape_one_head o d Hd) as [[Ed Nd]|(r & Ed & Hr)]; rewrite Ed in E; cbn [app] in E; injection E as _ E.
  { apply K. eapply IH. exact E. }
  apply K. clear Ed Hd.
  revert p E. induction r as [|y r IHr]; intros p E; [eapply IH; exact E|].
  cbn [app] in E. destruct p as [|z p]; cbn [app] in E.
  - injection E as -> _. exfalso. apply (Hr 63); [left; reflexivity|reflexivity].
  - injection E as _ E. apply (IHr (fun x Hx => Hr x (or_intror Hx)) p E).
Qed.

Lemma escape_cpp14 b : Forall is_byte b -> ~ has_trigraph b -> cpp14_literal (bytes_escape true b) b.
Proof.
  intros Hb Hn. unfold cpp14_literal. rewrite trigraphs_id.
  - apply escape_octal_literal; assumption.
  - intros H. apply Hn. eapply escape_no_trigraph; eassumption.
Qed.

(** ** UnicodeEscape *)

Lemma u_literal_functional s r r' : u_literal s r -> u_literal s r' -> r = r'.
Proof.
  intros H. revert r'. induction H as [|c s r Hc Hb Hq H IH|ds v s r Hl Hd Hs H IH|ds v s r Hl Hd Hs H IH]; intros r' H'.
  - inversion H'; reflexivity.
  - inversion H'; subst; try congruence. f_equal; auto.
  - inversion H' as [|? ? ? ? ? ?|ds0 v0 s0 r0 Hl0 Hd0 Hs0 H0 E|]; subst; try congruence.
    destruct (app_same_len _ _ _ _ E) as [-> ->]; [congruence|].
    f_equal; [|auto]. eapply digits_value_fun; [exact hex_value_fun|eassumption|eassumption].
  - inversion H' as [|? ? ? ? ? ?| |ds0 v0 s0 r0 Hl0 Hd0 Hs0 H0 E]; subst; try congruence.
    destruct (app_same_len _ _ _ _ E) as [-> ->]; [congruence|].
    f_equal; [|auto]. eapply digits_value_fun; [exact hex_value_fun|eassumption|eassumption].
Qed.

Ltac hexdigits := repeat (eapply dg_cons; [apply hex_digit_value; lia|]).

Lemma unicode_escape_one_ok c : cpp_scalar c -> exists x, unicode_escape_one c = Ok x /\
  forall s r, u_literal s r -> u_literal (x ++ s) (c :: r).
Proof.
  unfold cpp_scalar. intros Hc. unfold unicode_escape_one.
  rewrite !land_15, !Z.shiftr_div_pow2 by lia.
  change (2 ^ 28) with 268435456. change (2 ^ 24) with 16777216. change (2 ^ 20) with 1048576.
  change (2 ^ 16) with 65536. change (2 ^ 12) with 4096. change (2 ^ 8) with 256. change (2 ^ 4) with 16.
  rewrite !Z.geb_leb. destruct (Z.leb_spec 128 c).
  - destruct ((c <=? 55295) || ((57344 <=? c) && (c <=? 65535))) eqn:E1.
    + eexists; split; [reflexivity|]. intros s r H1.
      apply (ul_short [_; _; _; _]); [reflexivity| |exact Hc|exact H1].
      hexdigits. match goal with |- digits_value _ _ ?a _ _ => replace a with c by lia end. constructor.
    + assert (65536 <= c <= 1114111) by lia. rewrite (proj2 (andb_true_iff _ _)) by lia.
      eexists; split; [reflexivity|]. intros s r H1.
      apply (ul_long [_; _; _; _; _; _; _; _]); [reflexivity| |exact Hc|exact H1].
      hexdigits. match goal with |- digits_value _ _ ?a _ _ => replace a with c by lia end. constructor.
  - eexists; split; [reflexivity|]. intros s r H1.
    apply (ul_short [_; _; _; _]); [reflexivity| |exact Hc|exact H1].
    eapply dg_cons; [apply (hv_digit 48); lia|]. eapply dg_cons; [apply (hv_digit 48); lia|].
    hexdigits. match goal with |- digits_value _ _ ?a _ _ => replace a with c by lia end. constructor.
Qed.

Lemma unicode_escape_ok s : Forall cpp_scalar s -> exists x, unicode_escape s = Ok x /\ u_literal x s.
Proof.
  induction 1 as [|c s Hc Hs (x & Hx & Hl)]; [exists []; split; [reflexivity|constructor]|].
  destruct (unicode_escape_one_ok c Hc) as (y & Hy & HY).
  cbn [unicode_escape]. rewrite Hy. cbn [bind]. rewrite Hx. cbn [bind]. eauto.
Qed.
Lemma unicode_escape_raises s : Forall (fun c => 0 <= c) s -> ~ Forall cpp_scalar s -> unicode_escape s = Exn CheckFailed.
Proof.
  induction 1 as [|c s Hc Hs IH]; intros H; [exfalso; apply H; constructor|].
  cbn [unicode_escape]. assert (D : cpp_scalar c \/ ~ cpp_scalar c) by (unfold cpp_scalar; lia).
  destruct D as [D|D].
  - destruct (unicode_escape_one_ok c D) as (y & -> & _). cbn [bind]. rewrite IH; [reflexivity|].
    intros ?; apply H; constructor; assumption.
  - unfold unicode_escape_one. unfold cpp_scalar in D.
    rewrite !Z.geb_leb. destruct (Z.leb_spec 128 c); [|lia].
    destruct ((c <=? 55295) || ((57344 <=? c) && (c <=? 65535))) eqn:E1; [lia|].
    destruct ((65536 <=? c) && (c <=? 1114111)) eqn:E2; [lia|]. reflexivity.
Qed.
