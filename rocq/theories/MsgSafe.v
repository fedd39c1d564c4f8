(** Proofs about the msgpack model: the parser on arbitrary input. *)
From Verif Require Import Base Utf8Model MsgModel MsgSpec MsgProofs.
From Verif Require Utf8Proofs Utf8Spec.
Ltac Zify.zify_post_hook ::= Z.to_euclidean_division_equations.

(** ** Integers: shortest form *)

Lemma pack_int_len z : zlen (pack_int64 z) =
  if (-32 <=? z) && (z <=? 127) then 1
  else if (-128 <=? z) && (z <=? 255) then 2
  else if (-32768 <=? z) && (z <=? 65535) then 3
  else if (-2147483648 <=? z) && (z <=? 4294967295) then 5 else 9.
Proof.
  unfold pack_int64.
  repeat match goal with |- context [if ?c then _ else _] => destruct c eqn:? end;
  try lia; unfold zlen; cbn [length be]; try reflexivity; exfalso; lia.
Qed.

Lemma shortest z e : int64 z -> int_enc z e -> (length (pack_int64 z) <= length e)%nat.
Proof.
  intros Hz H. pose proof (pack_int_len z) as HL. unfold zlen in HL.
  assert (HB : Z.of_nat (length (pack_int64 z)) <= Z.of_nat (length e)); [|lia]. rewrite HL. clear HL.
  unfold int64, two63 in Hz. destruct H as [z H|z H|h k bs HI Hb|h k bs HI Hb].
  - cbn [length]. replace ((-32 <=? z) && (z <=? 127)) with true by lia. lia.
  - cbn [length]. replace ((-32 <=? z) && (z <=? 127)) with true by lia. lia.
  - pose proof (bytes_num _ _ Hb) as HN. destruct Hb as [Hk _]. cbn [length]. rewrite Hk.
    cbn [In] in HI. destruct HI as [E|[E|[E|[E|[]]]]]; injection E as <- <-;
    repeat match type of HN with context [?b ^ ?e] => let v := eval vm_compute in (b ^ e) in change (b ^ e) with v in HN end;
    repeat match goal with |- context [if ?c then _ else _] => destruct c eqn:? end; lia.
  - pose proof (bytes_num _ _ Hb) as HN. destruct Hb as [Hk _]. cbn [length]. rewrite Hk. unfold signed in *.
    cbn [In] in HI. destruct HI as [E|[E|[E|[E|[]]]]]; injection E as <- <-;
    repeat match type of HN with context [?b ^ ?e] => let v := eval vm_compute in (b ^ e) in change (b ^ e) with v in HN end;
    repeat match goal with |- context [2 ^ ?e] => let v := eval vm_compute in (2 ^ e) in change (2 ^ e) with v end;
    match goal with |- context [num bs <? ?c] => destruct (num bs <? c) eqn:? end;
    repeat match goal with |- context [if ?c then _ else _] => destruct c eqn:? end; lia.
Qed.

(** ** Termination and bounds: every turn consumes a byte, every recursion two *)

(** [fine T r]: [r] is a value or an exception, or undefined behaviour that [T] excuses. *)
Definition fine {A} (T : Prop) (r : res A) : Prop := r <> OutOfFuel /\ (r = OOB -> T).
Lemma fine_bind {A B} T (r : res A) (k : A -> res B) :
  fine T r -> (forall x, r = Ok x -> fine T (k x)) -> fine T (bind r k).
Proof. unfold fine. intros [H1 H2] H. destruct r; cbn [bind]; auto; split; auto; congruence. Qed.
Lemma fine_ok {A} T (x : A) : fine T (Ok x). Proof. split; discriminate. Qed.
Lemma fine_exn {A} T e : fine T (@Exn A e). Proof. split; discriminate. Qed.
Lemma fine_if {A} T (b : bool) (x y : res A) :
  (b = true -> fine T x) -> (b = false -> fine T y) -> fine T (if b then x else y).
Proof. destruct b; auto. Qed.
Lemma fine_weak {A} (T T' : Prop) (r : res A) : (T -> T') -> fine T r -> fine T' r.
Proof. unfold fine. tauto. Qed.

Lemma rd_in {A} (l : list A) i : (i < length l)%nat -> exists x, rd l i = Ok x /\ In x l.
Proof.
  intros H. unfold rd. destruct (nth_error l i) eqn:E.
  - apply nth_error_In in E. eauto.
  - apply nth_error_None in E. lia.
Qed.
Lemma load_in k : forall p, Z.of_nat k <= zlen p -> exists x, load k p = Ok x.
Proof.
  induction k; intros p H; cbn [load]; [eauto|].
  destruct p as [|b p]; [rewrite zlen_nil in H; lia|]. rewrite zlen_cons in H.
  unfold rd. cbn [nth_error bind tl]. destruct (IHk p) as [x ->]; [lia|]. cbn [bind]. eauto.
Qed.
Lemma load_le_in k : forall p, Z.of_nat k <= zlen p -> exists x, load_le k p = Ok x.
Proof.
  induction k; intros p H; cbn [load_le]; [eauto|].
  destruct p as [|b p]; [rewrite zlen_nil in H; lia|]. rewrite zlen_cons in H.
  unfold rd. cbn [nth_error bind tl]. destruct (IHk p) as [x ->]; [lia|]. cbn [bind]. eauto.
Qed.
Lemma load_bound k : forall p x, Forall is_byte p -> load k p = Ok x -> 0 <= x < 256 ^ Z.of_nat k.
Proof.
  induction k; intros p x HF H; cbn [load] in H.
  - inversion H; subst. cbn; lia.
  - destruct p as [|b p]; [discriminate|]. unfold rd in H. cbn [nth_error bind tl] in H.
    destruct (load k p) as [r| | |] eqn:E; cbn [bind] in H; try discriminate. apply Ok_inj in H; subst x.
    inversion HF; subst. apply IHk in E; [|assumption]. unfold is_byte in *. rewrite pow256_S.
    assert (0 <= b * 256 ^ Z.of_nat k <= 255 * 256 ^ Z.of_nat k).
    { pose proof (pow256_pos k). split; [apply Z.mul_nonneg_nonneg; lia|apply Z.mul_le_mono_nonneg_r; lia]. }
    lia.
Qed.
Lemma load_le_bound k : forall p x, Forall is_byte p -> load_le k p = Ok x -> 0 <= x < 256 ^ Z.of_nat k.
Proof.
  induction k; intros p x HF H; cbn [load_le] in H.
  - inversion H; subst. cbn; lia.
  - destruct p as [|b p]; [discriminate|]. unfold rd in H. cbn [nth_error bind tl] in H.
    destruct (load_le k p) as [r| | |] eqn:E; cbn [bind] in H; try discriminate. apply Ok_inj in H; subst x.
    inversion HF; subst. apply IHk in E; [|assumption]. unfold is_byte in *. rewrite pow256_S. lia.
Qed.
Lemma advance_bytes p n : Forall is_byte p -> Forall is_byte (advance p n).
Proof. intros H. unfold advance. rewrite <- (firstn_skipn (Z.to_nat n) p) in H. apply Forall_app in H. apply H. Qed.
Lemma firstn_bytes p n : Forall is_byte p -> Forall is_byte (firstn n p).
Proof. intros H. rewrite <- (firstn_skipn n p) in H. apply Forall_app in H. apply H. Qed.
Lemma zlen_advance p n : 0 <= n <= zlen p -> zlen (advance p n) = zlen p - n.
Proof. intros H. unfold advance, zlen in *. rewrite skipn_length. lia. Qed.
Lemma shapes_in n : forall p, 8 * Z.of_nat n <= zlen p ->
  exists sh, load_shapes n p = Ok (sh, advance p (8 * Z.of_nat n)).
Proof.
  induction n; intros p H; cbn [load_shapes]; [exists []; reflexivity|].
  destruct (load_le_in 8 p) as [x ->]; [lia|]. cbn [bind].
  destruct (IHn (advance p 8)) as [sh ->]; [rewrite zlen_advance by lia; lia|]. cbn [bind fst snd].
  eexists. do 2 f_equal. unfold advance.
  replace (Z.to_nat (8 * Z.of_nat (S n))) with (8 + Z.to_nat (8 * Z.of_nat n))%nat by lia.
  change (Z.to_nat 8) with 8%nat. clear. revert p. generalize (Z.to_nat (8 * Z.of_nat n)). intros k p.
  do 8 (destruct p as [|? p]; [rewrite ?skipn_nil; reflexivity|]). reflexivity.
Qed.
Lemma slice_in p n : 0 <= n <= zlen p -> slice p n = Ok (firstn (Z.to_nat n) p).
Proof. intros H. unfold slice. destruct (n <=? zlen p) eqn:E; [reflexivity|lia]. Qed.

Lemma has_ts_sub a b c : has_timestamp b -> has_timestamp (a ++ b ++ c).
Proof.
  intros (x & m & y & Hm & ->). exists (a ++ x), m, (y ++ c). split; [assumption|].
  rewrite <- !app_assoc. reflexivity.
Qed.
Lemma has_ts_cons b p : has_timestamp p -> has_timestamp (b :: p).
Proof. intros H. apply (has_ts_sub [b] p []) in H. rewrite app_nil_r in H. exact H. Qed.
Lemma has_ts_skip n p : has_timestamp (skipn n p) -> has_timestamp p.
Proof.
  intros H. rewrite <- (firstn_skipn n p). apply (has_ts_sub (firstn n p) _ []) in H.
  rewrite app_nil_r in H. exact H.
Qed.
Lemma has_ts_first n p : has_timestamp (firstn n p) -> has_timestamp p.
Proof. intros H. rewrite <- (firstn_skipn n p). apply (has_ts_sub [] _ (skipn n p)) in H. exact H. Qed.

Section Total.
Variable keq : value -> value -> bool.
Variable ts_double : Z -> Z -> Z.
Variable widen : Z -> Z.

Lemma set_fine T l : forall s, fine T (set_emplace_all keq s l).
Proof.
  induction l; intros s; cbn [set_emplace_all]; [apply fine_ok|].
  repeat (apply fine_if; intros _); auto. apply fine_exn.
Qed.
Lemma dict_fine T d k v : fine T (dict_emplace keq d k v).
Proof. unfold dict_emplace. repeat (apply fine_if; intros _); first [apply fine_ok|apply fine_exn]. Qed.

(** The NDArray branch stays inside its [length] bytes. *)
Lemma nd_fine T pos n : Forall is_byte pos -> n <= zlen pos -> n < 2 ^ 32 -> fine T (unpack_nd pos n).
Proof.
  intros HF Hn H32. unfold unpack_nd. apply fine_if; intros E; [apply fine_exn|].
  destruct (rd_in pos 0) as (c & -> & _); [unfold zlen in *; lia|]. cbn [bind].
  destruct (rd_in pos 1) as (b & -> & _); [unfold zlen in *; lia|]. cbn [bind].
  destruct (load_le_in 2 (advance pos 2)) as [l ->]; [rewrite zlen_advance; lia|]. cbn [bind].
  destruct (load_le_in 4 (advance pos 4)) as [nd Hnd]; [rewrite zlen_advance; lia|]. rewrite Hnd. cbn [bind].
  apply load_le_bound in Hnd; [|apply advance_bytes, HF]. change (256 ^ Z.of_nat 4) with (2 ^ 32) in Hnd.
  cbn zeta. assert (HD : sext 32 nd < 2 ^ 32).
  { unfold sext. destruct (nd <? 2 ^ (32 - 1)); lia. }
  set (ndim := sext 32 nd) in *. clearbody ndim.
  apply fine_if; intros E2; [apply fine_exn|].
  apply fine_if; intros E3; [apply fine_exn|].
  assert (HS : 8 + ndim * 8 <= n) by (unfold wrapu64, two64 in E2; lia).
  destruct (shapes_in (Z.to_nat ndim) (advance pos 8)) as [sh ->]; [rewrite zlen_advance; lia|]. cbn [bind fst snd].
  apply fine_if; intros E4; [apply fine_exn|].
  apply fine_if; intros E5; [apply fine_exn|].
  assert (0 <= nd_size b l sh < two64) by (apply Z.mod_pos_bound; reflexivity).
  rewrite slice_in; [apply fine_ok|].
  rewrite !zlen_advance by (rewrite ?zlen_advance; lia).
  apply negb_false_iff in E4. unfold wrapu64, two64 in *. lia.
Qed.

Section Body.
Variable rec : list Z -> bool -> res value.
(** The recursive call is fine on everything shorter than [m]. *)
Variable m : nat.
Hypothesis REC : forall s, Forall is_byte s -> (length s < m)%nat -> fine (has_timestamp s) (rec s false).

Lemma retag_fine (T : Prop) o b : T -> fine T (retag o b).
Proof. intros H. destruct o; split; auto; discriminate. Qed.

Lemma ext_fine (T : Prop) obj n trail p : Forall is_byte n -> (length n <= m)%nat -> (has_timestamp n -> T) ->
  0 <= trail < 2 ^ 32 -> n <> [] ->
  (trail = 0 -> hd 0 n = 255) -> trail <= zlen n ->
  (hd 0 n = 255 -> In trail [5; 9; 13] -> T) ->
  fine T (ext_value keq ts_double rec obj n trail p).
Proof.
  intros HF Hm HT Htr Hne Hz Hl HTS. unfold ext_value. destruct n as [|b n]; [congruence|].
  unfold rd. cbn [nth_error bind tl]. cbn [hd] in *. cbn zeta. rewrite zlen_cons in Hl.
  inversion HF as [|? ? Hb HFn]; subst. unfold is_byte in Hb.
  assert (HL : trail <> 0 -> (trail - 1) mod two32 = trail - 1) by (intros; apply Z.mod_small; unfold two32; lia).
  apply fine_if; intros E.
  - assert (Hb255 : b = 255).
    { unfold sext in E. change (2 ^ (8 - 1)) with 128 in E. change (2 ^ 8) with 256 in E.
      destruct (b <? 128) eqn:E2; lia. }
    unfold unpack_timestamp. pose proof (zlen_nonneg n).
    destruct (trail =? 0) eqn:E0.
    { replace trail with 0 by lia. change ((0 - 1) mod two32) with (2 ^ 32 - 1).
      change (2 ^ 32 - 1 =? 4) with false. change (2 ^ 32 - 1 =? 8) with false.
      change (2 ^ 32 - 1 =? 12) with false. cbn [bind]. apply fine_ok. }
    rewrite HL by lia.
    destruct (trail - 1 =? 4) eqn:E4.
    { destruct (load_in 4 n) as [x ->]; [lia|]. cbn [bind]. apply fine_bind; [|intros; apply fine_ok].
      apply retag_fine, HTS; auto. left; lia. }
    destruct (trail - 1 =? 8) eqn:E8.
    { destruct (load_in 8 n) as [x ->]; [lia|]. cbn [bind]. apply fine_bind; [|intros; apply fine_ok].
      apply retag_fine, HTS; auto. right; left; lia. }
    destruct (trail - 1 =? 12) eqn:E12.
    { destruct (load_in 4 n) as [x ->]; [lia|]. cbn [bind].
      destruct (load_in 8 (advance n 4)) as [y ->]; [rewrite zlen_advance; lia|]. cbn [bind].
      apply fine_bind; [|intros; apply fine_ok].
      apply retag_fine, HTS; auto. right; right; left; lia. }
    cbn [bind]. apply fine_ok.
  - assert (trail <> 0).
    { intros ->. rewrite Hz in E by reflexivity. discriminate E. }
    rewrite HL by lia. apply fine_bind; [|intros; apply fine_ok]. unfold ext_hook.
    apply fine_if; intros E1; [|apply fine_if; intros E2].
    + rewrite slice_in by lia. cbn [bind].
      set (s := firstn (Z.to_nat (trail - 1)) n).
      apply fine_bind.
      * eapply fine_weak; [|apply REC].
        -- intros Hs. apply HT, has_ts_cons. eapply has_ts_first, Hs.
        -- apply firstn_bytes, HFn.
        -- unfold s. rewrite firstn_length. cbn [length] in Hm. lia.
      * intros v _. destruct v; try apply fine_exn. apply fine_bind; [apply set_fine|intros; apply fine_ok].
    + apply nd_fine; auto; lia.
    + apply fine_exn.
Qed.

Lemma utf8_fine T s : Forall is_byte s -> fine T (utf8_decode s).
Proof.
  intros H. destruct (Utf8Proofs.utf8_decode_outcome s H) as (cs & -> & _). apply fine_ok.
Qed.

Lemma raw_fine T n0 p n : Forall is_byte n0 -> Forall is_byte p -> 0 <= n -> fine T (raw_trail n0 p n).
Proof.
  intros H0 Hp Hn. pose proof (zlen_nonneg n0). unfold raw_trail, raw_value.
  apply fine_if; intros E; [|apply fine_if; intros E2; [apply fine_ok|]].
  - rewrite slice_in by lia. cbn [bind]. apply fine_bind; [|intros; apply fine_ok].
    apply utf8_fine, firstn_bytes, H0.
  - rewrite slice_in by lia. cbn [bind]. apply fine_bind; [|intros; apply fine_ok].
    apply utf8_fine, firstn_bytes, Hp.
Qed.
Lemma bin_fine T n0 p n : 0 <= n -> fine T (bin_trail n0 p n).
Proof.
  intros Hn. pose proof (zlen_nonneg n0). unfold bin_trail, bin_value.
  apply fine_if; intros E; [|apply fine_if; intros E2; [apply fine_ok|]].
  - rewrite slice_in by lia. apply fine_ok.
  - rewrite slice_in by lia. apply fine_ok.
Qed.

Lemma ext_trail_fine (T : Prop) obj n0 p n : Forall is_byte n0 -> Forall is_byte p ->
  (length p <= m)%nat -> (length n0 <= m)%nat -> (has_timestamp n0 -> T) -> (has_timestamp p -> T) ->
  0 <= n < 2 ^ 32 ->
  (n = 0 -> n0 <> [] /\ hd 0 n0 = 255) ->
  (hd 0 p = 255 -> p <> [] -> In n [5; 9; 13] -> T) ->
  fine T (ext_trail keq ts_double rec obj n0 p n).
Proof.
  intros H0 Hp Hm Hm0 HT0 HT Hn Hz HTS. unfold ext_trail. pose proof (zlen_nonneg n0).
  apply fine_if; intros E; [|apply fine_if; intros E2; [apply fine_ok|]].
  - destruct (Hz ltac:(lia)) as [HN H255].
    apply ext_fine; auto; try lia; try (intros _ [|[|[|[]]]]; discriminate).
  - assert (p <> []) by (intros ->; rewrite zlen_nil in E2; lia).
    apply ext_fine; auto; lia.
Qed.

Lemma mark_first h : forall p, In [h; 255] ts_marks -> hd 0 p = 255 -> p <> [] -> has_timestamp (h :: p).
Proof.
  intros [|b p] HI Hb Hne; [congruence|]. cbn [hd] in Hb. subst b.
  exists [], [h; 255], p. split; [assumption|reflexivity].
Qed.

Lemma load_split k : forall p x, Forall is_byte p -> load k p = Ok x -> 
  exists bs r, p = bs ++ r /\ bytes k bs /\ num bs = x.
Proof.
  intros p x HF H. exists (firstn k p), (skipn k p). rewrite firstn_skipn. split; [reflexivity|].
  assert (HL : (k <= length p)%nat).
  { clear HF. revert p x H. induction k; intros p x H; [lia|]. cbn [load] in H.
    destruct p as [|b p]; [discriminate|]. unfold rd in H. cbn [nth_error bind tl] in H.
    destruct (load k p) eqn:E; cbn [bind] in H; try discriminate. apply IHk in E. cbn [length]. lia. }
  assert (HB : bytes k (firstn k p)) by (split; [rewrite firstn_length; lia|apply firstn_bytes, HF]).
  split; [assumption|].
  pose proof (load_bytes k (firstn k p) (skipn k p) HB) as HE. rewrite firstn_skipn, H in HE. congruence.
Qed.

(** A timestamp with an explicit length is one of the marked headers. *)
Lemma mark_sized h k bs r : In (h, k) [(199, 1%nat); (200, 2%nat); (201, 4%nat)] -> bytes k bs ->
  In (num bs) [4; 8; 12] -> hd 0 r = 255 -> r <> [] -> has_timestamp (h :: bs ++ r).
Proof.
  intros HI [HL HF] HN Hr Hne. destruct r as [|b r]; [congruence|]. cbn [hd] in Hr. subst b.
  exists [], (h :: bs ++ [255]), r. split; [|cbn [app]; rewrite <- app_assoc; reflexivity].
  cbn [In] in HI, HN. destruct HI as [E|[E|[E|[]]]]; injection E as <- <-.
  - destruct bs as [|b0 [|]]; try discriminate HL. unfold num in HN. cbn [fold_left] in HN.
    assert (b0 = 4 \/ b0 = 8 \/ b0 = 12) as [->|[->| ->]] by lia; cbn; tauto.
  - destruct bs as [|b0 [|b1 [|]]]; try discriminate HL. unfold num in HN. cbn [fold_left] in HN.
    inversion HF as [|? ? B0 HF1]; inversion HF1 as [|? ? B1 _]; subst. unfold is_byte in *.
    assert (b0 = 0) as -> by lia.
    assert (b1 = 4 \/ b1 = 8 \/ b1 = 12) as [->|[->| ->]] by lia; cbn; tauto.
  - destruct bs as [|b0 [|b1 [|b2 [|b3 [|]]]]]; try discriminate HL. unfold num in HN. cbn [fold_left] in HN.
    inversion HF as [|? ? B0 HF1]; inversion HF1 as [|? ? B1 HF2]; inversion HF2 as [|? ? B2 HF3];
    inversion HF3 as [|? ? B3 _]; subst. unfold is_byte in *.
    assert (b0 = 0) as -> by lia. assert (b1 = 0) as -> by lia. assert (b2 = 0) as -> by lia.
    assert (b3 = 4 \/ b3 = 8 \/ b3 = 12) as [->|[->| ->]] by lia; cbn; tauto.
Qed.

Ltac byeq := repeat match goal with H : (?x =? _) = true |- _ => apply Z.eqb_eq in H; subst x end; tauto.

Lemma header_fine p obj : Forall is_byte p -> p <> [] -> (length p <= m)%nat ->
  fine (has_timestamp p) (header keq ts_double rec widen p obj).
Proof.
  intros HF Hne Hm. destruct p as [|b q]; [congruence|]. clear Hne.
  inversion HF as [|? ? Hb HFq]; subst. cbn [length] in Hm.
  unfold header. unfold rd. cbn [nth_error bind tl]. cbn zeta.
  assert (FIX : forall k (K : Z -> list Z -> res item),
    (forall bs r, q = bs ++ r -> bytes k bs -> fine (has_timestamp (b :: q)) (K (num bs) r)) ->
    fine (has_timestamp (b :: q)) (fixed_trail q k K)).
  { intros k K HK. unfold fixed_trail. apply fine_if; intros E; [apply fine_ok|].
    destruct (load_in k q) as [x Hx]; [lia|]. rewrite Hx. cbn [bind].
    destruct (load_split k q x HFq Hx) as (bs & r & -> & HB & <-).
    rewrite (advance_app bs r) by (rewrite (bytes_zlen _ _ HB); reflexivity). apply HK; auto. }
  assert (EXT : forall k, In (b, k) [(199, 1%nat); (200, 2%nat); (201, 4%nat)] -> forall bs r, q = bs ++ r -> bytes k bs ->
    fine (has_timestamp (b :: q)) (ext_trail keq ts_double rec obj q r ((num bs + 1) mod two32))).
  { intros k HI bs r Hq HB. rewrite Hq in HFq. apply Forall_app in HFq. destruct HFq as [HFb HFr].
    pose proof (bytes_num _ _ HB) as HN.
    assert (H32 : num bs < 2 ^ 32).
    { cbn [In] in HI. destruct HI as [E|[E|[E|[]]]]; injection E as _ <-;
      repeat match type of HN with context [?b ^ ?e] => let v := eval vm_compute in (b ^ e) in change (b ^ e) with v in HN end; lia. }
    apply ext_trail_fine.
    - rewrite Hq. apply Forall_app; auto.
    - assumption.
    - rewrite Hq, app_length in Hm. lia.
    - lia.
    - apply has_ts_cons.
    - intros Hr. apply has_ts_cons. rewrite Hq. apply (has_ts_sub bs r []) in Hr. rewrite app_nil_r in Hr. exact Hr.
    - apply Z.mod_pos_bound. reflexivity.
    - intros Hz. assert (HM : num bs = 2 ^ 32 - 1) by (unfold two32 in Hz; lia).
      cbn [In] in HI. destruct HI as [E|[E|[E|[]]]]; injection E as _ <-;
      repeat match type of HN with context [?b ^ ?e] => let v := eval vm_compute in (b ^ e) in change (b ^ e) with v in HN end; try lia.
      destruct HB as [HL HFb']. destruct bs as [|b0 [|b1 [|b2 [|b3 [|]]]]]; try discriminate HL.
      unfold num in HM. cbn [fold_left] in HM.
      inversion HFb' as [|? ? B0 HF1]; inversion HF1 as [|? ? B1 HF2]; inversion HF2 as [|? ? B2 HF3];
      inversion HF3 as [|? ? B3 _]; subst. unfold is_byte in *. split; [discriminate|]. cbn [app hd]. lia.
    - intros H255 Hr HM. rewrite Hq. apply (mark_sized b k); auto.
      rewrite Z.mod_small in HM; [cbn [In] in *; lia|].
      assert (num bs + 1 <> 2 ^ 32); [|unfold two32; lia].
      intros HX. rewrite HX in HM. unfold two32 in HM. rewrite Z.mod_same in HM by lia. cbn [In] in HM. lia. }
  assert (FEXT : forall n, In (b, n) [(212, 2); (213, 3); (214, 5); (215, 9); (216, 17)] ->
    fine (has_timestamp (b :: q)) (ext_trail keq ts_double rec obj q q n)).
  { intros n HI. apply ext_trail_fine; auto; try lia; try (apply has_ts_cons).
    - cbn [In] in HI. destruct HI as [E|[E|[E|[E|[E|[]]]]]]; injection E as _ <-; lia.
    - cbn [In] in HI. destruct HI as [E|[E|[E|[E|[E|[]]]]]]; injection E as _ <-; lia.
    - intros H255 Hr HM. apply mark_first; auto. unfold ts_marks. cbn [In] in HI, HM |- *.
      destruct HI as [E|[E|[E|[E|[E|[]]]]]]; injection E as <- <-; first [exfalso; lia|tauto]. }
  unfold is_byte in Hb.
  repeat first [apply fine_ok
   |apply FIX; intros bs r Hq HB; first [apply fine_ok
     |apply bin_fine; apply (bytes_num _ _ HB)
     |apply raw_fine; [assumption| |apply (bytes_num _ _ HB)]; rewrite Hq in HFq; apply Forall_app in HFq; apply HFq
     |eapply EXT; [|eassumption|eassumption]; cbn [In]; byeq]
   |apply FEXT; cbn [In]; byeq
   |apply raw_fine; [assumption|assumption|change 31 with (2 ^ 5 - 1); rewrite land_mod by lia; lia]
   |apply fine_if; intros ?].
Qed.

Lemma push_fine T ul stk : forall obj, fine T (push keq ul obj stk).
Proof.
  induction stk as [|[n c l|n c l|n c l k] stk IH]; intros obj; cbn [push]; [apply fine_ok| |apply fine_ok|].
  - apply fine_if; intros _; [apply IH|apply fine_ok].
  - apply fine_bind; [apply dict_fine|]. intros d' _. apply fine_if; intros _; [apply IH|apply fine_ok].
Qed.

(** A finished array has popped its frame: the stack stays within its capacity. *)
Lemma push_stack ul stk : forall obj o s, push keq ul obj stk = Ok (inr (o, s)) -> zlen s <= zlen stk.
Proof.
  induction stk as [|[n c l|n c l|n c l k] stk IH]; intros obj o s; cbn [push]; [discriminate| | |].
  - destruct (c + 1 =? n); intros H.
    + apply IH in H. rewrite zlen_cons. lia.
    + inversion H; subst. rewrite !zlen_cons. lia.
  - intros H; inversion H; subst. rewrite !zlen_cons. lia.
  - destruct (dict_emplace keq l k obj); cbn [bind]; try discriminate.
    destruct (c + 1 =? n); intros H.
    + apply IH in H. rewrite zlen_cons. lia.
    + inversion H; subst. rewrite !zlen_cons. lia.
Qed.

(** What an item leaves unread is a suffix of the input. *)
Definition sfx (q : list Z) (r : res item) : Prop := forall it, r = Ok it -> exists k, rest it = skipn k q.
Lemma sfx_val q v k : sfx q (Ok (IVal v (skipn k q))).
Proof. intros it E. inversion E. exists k. reflexivity. Qed.
Lemma sfx_arr q v k : sfx q (Ok (IArray v (skipn k q))).
Proof. intros it E. inversion E. exists k. reflexivity. Qed.
Lemma sfx_map q v k : sfx q (Ok (IMap v (skipn k q))).
Proof. intros it E. inversion E. exists k. reflexivity. Qed.
Lemma sfx_end q r : sfx q (Ok (IEnd r)).
Proof. intros it E. inversion E. exists (length q). cbn [rest]. rewrite skipn_all. reflexivity. Qed.
Lemma sfx_bind {A} q (r : res A) k : (forall x, sfx q (k x)) -> sfx q (bind r k).
Proof. intros H it E. destruct r; cbn [bind] in E; try discriminate. eapply H, E. Qed.
Lemma sfx_if q (b : bool) x y : sfx q x -> sfx q y -> sfx q (if b then x else y).
Proof. destruct b; auto. Qed.
Lemma skipn_skipn' {A} n j (l : list A) : skipn n (skipn j l) = skipn (j + n) l.
Proof. revert l. induction j; intros l; [reflexivity|]. destruct l; [rewrite !skipn_nil; reflexivity|apply IHj]. Qed.
Lemma sfx_trans q n r : sfx (skipn n q) r -> sfx q r.
Proof. intros W it E. destruct (W it E) as [k H]. exists (n + k)%nat. rewrite H, skipn_skipn'. reflexivity. Qed.
Ltac sf := repeat first [apply sfx_end|apply sfx_if|apply sfx_bind; intros
  |match goal with |- sfx _ (match ?x with _ => _ end) => destruct x end].
Lemma raw_sfx n0 p n : sfx p (raw_trail n0 p n).
Proof. unfold raw_trail, raw_value. sf; first [apply (sfx_val p _ 0)|apply sfx_val]. Qed.
Lemma bin_sfx n0 p n : sfx p (bin_trail n0 p n).
Proof. unfold bin_trail, bin_value. sf; first [apply (sfx_val p _ 0)|apply sfx_val]. Qed.
Lemma ext_sfx obj n0 p n : sfx p (ext_trail keq ts_double rec obj n0 p n).
Proof. unfold ext_trail, ext_value. sf; first [apply (sfx_val p _ 0)|apply sfx_val]. Qed.
Lemma header_sfx b q obj : sfx q (header keq ts_double rec widen (b :: q) obj).
Proof.
  unfold header, fixed_trail, rd. cbn [nth_error bind tl].
  repeat first [apply sfx_end|apply (sfx_val q _ 0)|apply (sfx_arr q _ 0)|apply (sfx_map q _ 0)
    |apply sfx_val|apply sfx_arr|apply sfx_map
    |apply raw_sfx|apply bin_sfx|apply ext_sfx
    |eapply sfx_trans; first [apply raw_sfx|apply bin_sfx|apply ext_sfx]
    |apply sfx_if|apply sfx_bind; intros].
Qed.

Lemma run_fine ul : forall k p, length p = k -> forall obj stk, Forall is_byte p -> (length p <= m)%nat ->
  fine (has_timestamp p) (run keq ts_double widen rec ul p obj stk).
Proof.
  induction k as [k IH] using lt_wf_ind. intros p Hk obj stk HF Hm.
  destruct p as [|b q] eqn:EP; [apply fine_ok|]. rewrite <- EP in *.
  assert (Hne : p <> []) by (subst; discriminate).
  rewrite run_unfold by assumption. apply fine_bind; [apply header_fine; assumption|].
  intros it Hit. pose proof (header_progress _ _ _ _ _ _ _ Hit) as [_ HL].
  rewrite EP in Hit. destruct (header_sfx _ _ _ _ Hit) as [k' Hk'].
  assert (HR : Forall is_byte (rest it)) by (rewrite Hk'; subst p; inversion HF; subst; apply (advance_bytes q (Z.of_nat k')) in H2; unfold advance in H2; rewrite Nat2Z.id in H2; assumption).
  assert (HTS : has_timestamp (rest it) -> has_timestamp p).
  { rewrite Hk', EP. intros H. apply has_ts_cons. eapply has_ts_skip, H. }
  assert (GO : forall o s, fine (has_timestamp p) (run keq ts_double widen rec ul (rest it) o s)).
  { intros o s. eapply fine_weak; [exact HTS|]. eapply IH; [|reflexivity|assumption|]; lia. }
  assert (AF : forall v, fine (has_timestamp p) (after keq ts_double widen rec ul v stk (rest it))).
  { intros v. unfold after. apply fine_bind; [apply push_fine|]. intros [w|[o s]] _; [apply fine_ok|apply GO]. }
  destruct it as [v p'|n p'|n p'|r]; cbn [rest] in *; [apply AF| | |apply fine_ok].
  - apply fine_bind.
    + unfold start_container, STACK_SIZE. apply fine_if; intros E; [apply fine_ok|].
      apply fine_if; intros E2; [lia|]. apply fine_if; intros _; apply fine_ok.
    + intros [r|[fr|v]] _; [apply fine_ok|apply GO|apply AF].
  - apply fine_bind.
    + unfold start_container, STACK_SIZE. apply fine_if; intros E; [apply fine_ok|].
      apply fine_if; intros E2; [lia|]. apply fine_if; intros _; apply fine_ok.
    + intros [r|[fr|v]] _; [apply fine_ok|apply GO|apply AF].
Qed.
End Body.

Lemma unpackb_fine D : forall bs ul, Forall is_byte bs -> (length bs < D)%nat ->
  fine (has_timestamp bs) (unpackb keq ts_double widen D bs ul).
Proof.
  induction D as [|D IH]; intros bs ul HF HL; [lia|]. cbn [unpackb]. unfold unpackb_body.
  apply fine_bind.
  - apply (run_fine (unpackb keq ts_double widen D) (length bs)) with (k := length bs); auto.
    intros s Hs Hl. apply IH; [assumption|lia].
  - intros [v r|r] _; repeat (apply fine_if; intros _); first [apply fine_ok|apply fine_exn].
Qed.
End Total.
