(** Proofs about the msgpack model. *)
From Verif Require Import Base Utf8Model MsgModel MsgSpec.
From Verif Require Utf8Proofs Utf8Spec.
Ltac Zify.zify_post_hook ::= Z.to_euclidean_division_equations.

(** ** Numbers as bytes *)

Lemma Ok_inj {A} (a b : A) : Ok a = Ok b -> a = b.
Proof. congruence. Qed.

Lemma zlen_nonneg {A} (l : list A) : 0 <= zlen l.
Proof. unfold zlen. lia. Qed.
Lemma zlen_app {A} (a b : list A) : zlen (a ++ b) = zlen a + zlen b.
Proof. unfold zlen. rewrite app_length. lia. Qed.
Lemma zlen_cons {A} (x : A) l : zlen (x :: l) = 1 + zlen l.
Proof. unfold zlen. cbn [length]. lia. Qed.
Lemma zlen_nil {A} : zlen (@nil A) = 0.
Proof. reflexivity. Qed.

Lemma pow256_pos k : 0 < 256 ^ Z.of_nat k.
Proof. apply Z.pow_pos_nonneg; lia. Qed.
Lemma pow256_S k : 256 ^ Z.of_nat (S k) = 256 * 256 ^ Z.of_nat k.
Proof. rewrite Nat2Z.inj_succ, Z.pow_succ_r by lia. reflexivity. Qed.

Lemma fold_num bs a : fold_left (fun a b => a * 256 + b) bs a = a * 256 ^ zlen bs + num bs.
Proof.
  unfold num. revert a. induction bs as [|b bs IH]; intros a.
  - cbn. lia.
  - cbn [fold_left]. rewrite (IH (a * 256 + b)), (IH (0 * 256 + b)).
    unfold zlen. cbn [length]. rewrite pow256_S. ring.
Qed.
Lemma num_cons b bs : num (b :: bs) = b * 256 ^ zlen bs + num bs.
Proof. unfold num at 1. cbn [fold_left]. rewrite fold_num. reflexivity. Qed.

Lemma num_bound bs : Forall is_byte bs -> 0 <= num bs < 256 ^ zlen bs.
Proof.
  induction 1 as [|b bs Hb H IH]; [cbn; lia|].
  rewrite num_cons. unfold zlen. cbn [length]. rewrite pow256_S. fold (zlen bs).
  unfold is_byte in Hb. pose proof (pow256_pos (length bs)). fold (zlen bs) in *.
  change (Z.of_nat (length bs)) with (zlen bs) in *. nia.
Qed.
Lemma num_le_bound bs : Forall is_byte bs -> 0 <= num_le bs < 256 ^ zlen bs.
Proof.
  induction 1 as [|b bs Hb H IH]; [cbn; lia|].
  cbn [num_le fold_right]. fold (num_le bs). unfold zlen. cbn [length]. rewrite pow256_S. fold (zlen bs).
  unfold is_byte in Hb. change (Z.of_nat (length bs)) with (zlen bs) in *. lia.
Qed.

Lemma be_length k n : length (be k n) = k.
Proof. induction k; cbn; congruence. Qed.
Lemma be_bytes k n : bytes k (be k n).
Proof.
  split; [apply be_length|]. induction k; cbn [be]; constructor; auto.
  unfold is_byte. lia.
Qed.
Lemma num_be k n : num (be k n) = n mod 256 ^ Z.of_nat k.
Proof.
  induction k; [cbn; rewrite Z.mod_1_r; reflexivity|].
  cbn [be]. rewrite num_cons. unfold zlen. rewrite be_length, IHk, pow256_S.
  rewrite (Z.mul_comm 256), Z.rem_mul_r by (pose proof (pow256_pos k); lia). ring.
Qed.
Lemma le_length k n : length (le k n) = k.
Proof. revert n; induction k; intros; cbn; congruence. Qed.
Lemma le_bytes k n : bytes k (le k n).
Proof.
  split; [apply le_length|]. revert n; induction k; intros; cbn [le]; constructor; auto.
  unfold is_byte. lia.
Qed.
Lemma num_le_le k n : num_le (le k n) = n mod 256 ^ Z.of_nat k.
Proof.
  revert n; induction k; intros n; [cbn; rewrite Z.mod_1_r; reflexivity|].
  cbn [le num_le fold_right]. fold (num_le (le k (n / 256))). rewrite IHk, pow256_S.
  rewrite Z.rem_mul_r by (pose proof (pow256_pos k); lia). ring.
Qed.

Lemma load_num bs p : load (length bs) (bs ++ p) = Ok (num bs).
Proof.
  induction bs as [|b bs IH]; [reflexivity|].
  cbn [length load app tl rd nth_error bind]. unfold rd. cbn [nth_error bind]. rewrite IH. cbn [bind].
  rewrite num_cons. reflexivity.
Qed.
Lemma load_le_num bs p : load_le (length bs) (bs ++ p) = Ok (num_le bs).
Proof.
  induction bs as [|b bs IH]; [reflexivity|].
  cbn [length load_le app tl]. unfold rd. cbn [nth_error bind]. rewrite IH. cbn [bind].
  reflexivity.
Qed.
Lemma load_bytes k bs p : bytes k bs -> load k (bs ++ p) = Ok (num bs).
Proof. intros [<- _]. apply load_num. Qed.
Lemma load_le_bytes k bs p : bytes k bs -> load_le k (bs ++ p) = Ok (num_le bs).
Proof. intros [<- _]. apply load_le_num. Qed.

Lemma bytes_zlen k bs : bytes k bs -> zlen bs = Z.of_nat k.
Proof. intros [H _]. unfold zlen. lia. Qed.
Lemma bytes_num k bs : bytes k bs -> 0 <= num bs < 256 ^ Z.of_nat k.
Proof. intros H. rewrite <- (bytes_zlen k bs) by auto. apply num_bound, H. Qed.
Lemma bytes_num_le k bs : bytes k bs -> 0 <= num_le bs < 256 ^ Z.of_nat k.
Proof. intros H. rewrite <- (bytes_zlen k bs) by auto. apply num_le_bound, H. Qed.

Lemma advance_app (a p : list Z) n : n = zlen a -> advance (a ++ p) n = p.
Proof. intros ->. unfold advance, zlen. rewrite Nat2Z.id, skipn_app, skipn_all, Nat.sub_diag. reflexivity. Qed.
Lemma slice_app (a p : list Z) n : n = zlen a -> slice (a ++ p) n = Ok a.
Proof.
  intros ->. unfold slice. rewrite zlen_app. pose proof (zlen_nonneg p).
  destruct (zlen a <=? zlen a + zlen p) eqn:E; [|lia].
  unfold zlen. rewrite Nat2Z.id, firstn_app, firstn_all, Nat.sub_diag. cbn [firstn].
  rewrite app_nil_r. reflexivity.
Qed.
Lemma sext_signed w n : sext w n = signed w n.
Proof. reflexivity. Qed.

Lemma land_mod a k : 0 <= k -> Z.land a (2 ^ k - 1) = a mod 2 ^ k.
Proof. intros. rewrite <- Z.land_ones by lia. rewrite Z.ones_equiv. f_equal. Qed.

(** ** Hashability *)

Section ValueInd.
Variable P : value -> Prop.
Hypothesis Hnil : P VNil.
Hypothesis Hint : forall z, P (VInt z).
Hypothesis Hfloat : forall z, P (VFloat z).
Hypothesis Hbytes : forall z, P (VBytes z).
Hypothesis Hstr : forall z, P (VStr z).
Hypothesis Hlist : forall l, Forall P l -> P (VList l).
Hypothesis Htuple : forall l, Forall P l -> P (VTuple l).
Hypothesis Hdict : forall l, Forall (fun e => P (fst e) /\ P (snd e)) l -> P (VDict l).
Hypothesis Hset : forall l, Forall P l -> P (VSet l).
Hypothesis Hnd : forall a b c d e, P (VNd a b c d e).

Fixpoint value_ind' (v : value) : P v :=
  match v with
  | VNil => Hnil
  | VInt z => Hint z
  | VFloat z => Hfloat z
  | VBytes s => Hbytes s
  | VStr s => Hstr s
  | VList l => Hlist l ((fix go l := match l return Forall P l with
                          | [] => Forall_nil _
                          | x :: l' => Forall_cons _ (value_ind' x) (go l') end) l)
  | VTuple l => Htuple l ((fix go l := match l return Forall P l with
                          | [] => Forall_nil _
                          | x :: l' => Forall_cons _ (value_ind' x) (go l') end) l)
  | VDict l => Hdict l ((fix go l := match l return Forall (fun e => P (fst e) /\ P (snd e)) l with
                          | [] => Forall_nil _
                          | e :: l' => Forall_cons _ (conj (value_ind' (fst e)) (value_ind' (snd e))) (go l') end) l)
  | VSet l => Hset l ((fix go l := match l return Forall P l with
                          | [] => Forall_nil _
                          | x :: l' => Forall_cons _ (value_ind' x) (go l') end) l)
  | VNd a b c d e => Hnd a b c d e
  end.
End ValueInd.

Lemma can_hash_hashable v : can_hash v -> hashable v = true.
Proof.
  induction v using value_ind'; intros HC; inversion HC; subst; try reflexivity.
  cbn [hashable]. apply forallb_forall. intros x Hx.
  rewrite Forall_forall in *. auto.
Qed.

(** ** NDArray extensions *)

Lemma fold_volume shape : forall a, Forall (fun s => 0 <= s < two63) shape ->
  fold_left (fun size s => wrapu64 (size * wrapu64 s)) shape (wrapu64 a) = wrapu64 (a * volume shape).
Proof.
  unfold wrapu64. induction shape as [|s shape IH]; intros a H; cbn [fold_left volume fold_right].
  - rewrite Z.mul_1_r. reflexivity.
  - inversion H; subst. rewrite <- Z.mul_mod by (unfold two64; lia). rewrite IH by assumption.
    f_equal. fold (volume shape). ring.
Qed.
Lemma nd_size_true bits lanes shape : Forall (fun s => 0 <= s < two63) shape ->
  nd_size bits lanes shape = wrapu64 (volume shape * elem_size bits lanes).
Proof.
  intros H. unfold nd_size. change 1 with (wrapu64 1) at 1. rewrite fold_volume by assumption.
  unfold wrapu64, elem_size. rewrite Z.mul_1_l, Z.mul_mod_idemp_l by (unfold two64; lia). reflexivity.
Qed.

Lemma load_shapes_ok shape : forall sb p,
  Forall2 (fun s b => bytes 8 b /\ num_le b = s) shape sb -> Forall (fun s => 0 <= s < two63) shape ->
  load_shapes (length shape) (concat sb ++ p) = Ok (shape, p).
Proof.
  induction shape as [|s shape IH]; intros sb p H HF; inversion H; subst; [reflexivity|].
  destruct H2 as [Hb HN]. inversion HF; subst. cbn [length load_shapes concat].
  rewrite <- app_assoc, (load_le_bytes _ _ _ Hb). cbn [bind].
  rewrite (advance_app y _ 8) by (rewrite (bytes_zlen _ _ Hb); reflexivity).
  rewrite (IH _ p H4) by assumption. cbn [bind fst snd]. unfold sext.
  change (2 ^ (64 - 1)) with two63. destruct (num_le y <? two63) eqn:E; [reflexivity|lia].
Qed.

Lemma concat_len8 shape sb :
  Forall2 (fun s b => bytes 8 b /\ num_le b = s) shape sb -> zlen (concat sb) = 8 * zlen shape.
Proof.
  induction 1 as [|s b shape sb [Hb _] H IH]; [reflexivity|].
  cbn [concat]. rewrite zlen_app, zlen_cons, (bytes_zlen _ _ Hb), IH. lia.
Qed.

Lemma good_dtype_verify code bits lanes : good_dtype code bits lanes -> verify_dtype code bits lanes = true.
Proof.
  intros (HL & HC & HB). unfold verify_dtype. destruct (lanes <? 1) eqn:E; [lia|].
  destruct HB as [HB|[HB HC2]]; cbn [In] in *.
  - destruct HB as [<-|[<-|[<-|[<-|[<-|[<-|[]]]]]]]; cbn; destruct (code =? 2); reflexivity.
  - destruct HB as [<-|[<-|[]]], HC2 as [<-|[<-|[]]]; reflexivity.
Qed.

Lemma unpack_nd_ok code bits lanes shape data lb nb sb p :
  good_nd code bits lanes shape data ->
  bytes 2 lb -> num_le lb = lanes -> bytes 4 nb -> num_le nb = zlen shape -> zlen shape < 2 ^ 31 ->
  Forall2 (fun s b => bytes 8 b /\ num_le b = s) shape sb ->
  let body := [code; bits] ++ lb ++ nb ++ concat sb ++ data in
  zlen body < 2 ^ 32 - 1 ->
  unpack_nd (body ++ p) (zlen body) = Ok (VNd code bits lanes shape data).
Proof.
  intros (HD & HS & HV) Hlb Hl Hnb Hn HB Hsb body Hlen.
  assert (HL : zlen body = 8 + 8 * zlen shape + zlen data).
  { unfold body. rewrite !zlen_app, (bytes_zlen _ _ Hlb), (bytes_zlen _ _ Hnb), (concat_len8 _ _ Hsb).
    rewrite !zlen_cons, zlen_nil. lia. }
  pose proof (zlen_nonneg data). pose proof (zlen_nonneg shape).
  assert (HSZ : nd_size bits lanes shape = zlen data).
  { rewrite nd_size_true by assumption. rewrite <- HV. unfold wrapu64. apply Z.mod_small. unfold two64. lia. }
  unfold unpack_nd. destruct (zlen body <? 8) eqn:E1; [lia|].
  unfold body at 1 2. cbn [app]. unfold rd at 1 2. cbn [nth_error bind].
  assert (HA2 : advance (body ++ p) 2 = lb ++ nb ++ concat sb ++ data ++ p).
  { unfold body. rewrite <- app_assoc. rewrite (advance_app [code; bits]) by reflexivity.
    rewrite <- !app_assoc. reflexivity. }
  assert (HA4 : advance (body ++ p) 4 = nb ++ concat sb ++ data ++ p).
  { unfold body. rewrite <- !app_assoc. rewrite (app_assoc [code; bits] lb).
    rewrite advance_app; [reflexivity|]. rewrite zlen_app, (bytes_zlen _ _ Hlb). reflexivity. }
  assert (HA8 : advance (body ++ p) 8 = concat sb ++ data ++ p).
  { unfold body. rewrite <- !app_assoc. rewrite (app_assoc [code; bits] lb), (app_assoc _ nb).
    rewrite advance_app; [reflexivity|].
    rewrite !zlen_app, (bytes_zlen _ _ Hlb), (bytes_zlen _ _ Hnb). reflexivity. }
  fold body. change (code :: bits :: (lb ++ nb ++ concat sb ++ data) ++ p) with (body ++ p).
  rewrite HA2, (load_le_bytes _ _ _ Hlb), HA4, (load_le_bytes _ _ _ Hnb). cbn [bind].
  rewrite Hn, Hl. unfold sext. change (2 ^ (32 - 1)) with (2 ^ 31).
  destruct (zlen shape <? 2 ^ 31) eqn:E2; [|lia]. cbn zeta.
  assert (HW : wrapu64 (8 + wrapu64 (zlen shape * 8)) = 8 + 8 * zlen shape).
  { unfold wrapu64, two64. lia. }
  rewrite HW. destruct (zlen body <? 8 + 8 * zlen shape) eqn:E3; [lia|].
  destruct (zlen shape <? 0) eqn:E4; [lia|].
  rewrite HA8. unfold zlen at 1. rewrite Nat2Z.id, (load_shapes_ok _ _ _ Hsb HS). cbn [bind fst snd].
  rewrite HSZ.
  assert (HW2 : wrapu64 (8 + wrapu64 (zlen shape * 8) + zlen data) = zlen body).
  { unfold wrapu64, two64. lia. }
  rewrite HW2, Z.eqb_refl. cbn [negb]. rewrite good_dtype_verify by assumption. cbn [negb].
  rewrite slice_app by reflexivity. reflexivity.
Qed.

Lemma ext_hdr_bound ty n hd : ext_hdr ty n hd -> n < 2 ^ 32 - 1.
Proof.
  intros [h HI|h _ HI]; [|exact HI]. cbn [In] in HI.
  destruct HI as [E1|[E1|[E1|[E1|[E1|[]]]]]]; injection E1 as <- E2; lia.
Qed.

Lemma enough k bs r : bytes k bs -> (zlen (bs ++ r) <? Z.of_nat k) = false.
Proof. intros H. rewrite zlen_app, (bytes_zlen _ _ H). pose proof (zlen_nonneg r). lia. Qed.

(** ** Headers *)

Section Decode.
Variable keq : value -> value -> bool.
Variable ts_double : Z -> Z -> Z.
Variable widen : Z -> Z.

Section Headers.
Variable rec : list Z -> bool -> res value.
Notation header := (header keq ts_double rec widen).

Lemma raw_trail_app n0 s p n : n = zlen s ->
  raw_trail n0 (s ++ p) n = let! u := utf8_decode s in Ok (IVal (VStr u) p).
Proof.
  intros ->. unfold raw_trail, raw_value. destruct (zlen s =? 0) eqn:E.
  - destruct s; [|rewrite zlen_cons in E; pose proof (zlen_nonneg s); lia].
    change n0 with ([] ++ n0). rewrite slice_app by reflexivity. reflexivity.
  - rewrite zlen_app. pose proof (zlen_nonneg p).
    destruct (zlen s + zlen p <? zlen s) eqn:E2; [lia|].
    rewrite slice_app, advance_app by reflexivity. reflexivity.
Qed.
Lemma bin_trail_app n0 s p n : n = zlen s ->
  bin_trail n0 (s ++ p) n = Ok (IVal (VBytes s) p).
Proof.
  intros ->. unfold bin_trail, bin_value. destruct (zlen s =? 0) eqn:E.
  - destruct s; [|rewrite zlen_cons in E; pose proof (zlen_nonneg s); lia].
    change n0 with ([] ++ n0). rewrite slice_app by reflexivity. reflexivity.
  - rewrite zlen_app. pose proof (zlen_nonneg p).
    destruct (zlen s + zlen p <? zlen s) eqn:E2; [lia|].
    rewrite slice_app, advance_app by reflexivity. reflexivity.
Qed.

Ltac hd := unfold MsgModel.header, fixed_trail, rd; cbn [nth_error bind tl app Z.leb Z.compare andb Pos.compare Pos.compare_cont Z.eqb Pos.eqb].
(** [fixed k] on [k] bytes [bs] *)
Ltac fix_ok Hb :=
  rewrite (enough _ _ _ Hb);
  rewrite (load_bytes _ _ _ Hb); cbn [bind];
  rewrite (advance_app _ _ _ (eq_sym (bytes_zlen _ _ Hb))).

Lemma header_small b q obj : 128 <= b < 192 ->
  header (b :: q) obj =
    if 160 <=? b then raw_trail q q (b mod 32)
    else if 144 <=? b then Ok (IArray (b mod 16) q) else Ok (IMap (b mod 16) q).
Proof.
  intros H. unfold MsgModel.header, rd. cbn [nth_error bind tl].
  change 31 with (2 ^ 5 - 1). change 15 with (2 ^ 4 - 1). rewrite !land_mod by lia.
  change (2 ^ 5) with 32. change (2 ^ 4) with 16.
  destruct (160 <=? b) eqn:E1; [|destruct (144 <=? b) eqn:E2].
  all: repeat match goal with |- context [if ?c then _ else _] =>
    first [replace c with true by lia | replace c with false by lia]; cbv iota end; reflexivity.
Qed.

Lemma header_posfix z p obj : 0 <= z <= 127 -> header (z :: p) obj = Ok (IVal (VInt z) p).
Proof.
  intros H. unfold MsgModel.header, rd. cbn [nth_error bind tl].
  replace ((0 <=? z) && (z <=? 127)) with true by lia. reflexivity.
Qed.
Lemma header_negfix z p obj : -32 <= z <= -1 -> header (256 + z :: p) obj = Ok (IVal (VInt z) p).
Proof.
  intros H. unfold MsgModel.header, rd. cbn [nth_error bind tl].
  replace ((0 <=? 256 + z) && (256 + z <=? 127)) with false by lia.
  replace ((224 <=? 256 + z) && (256 + z <=? 255)) with true by lia. cbv iota.
  unfold sext. change (2 ^ (8 - 1)) with 128. change (2 ^ 8) with 256.
  destruct (256 + z <? 128) eqn:E; [lia|]. do 3 f_equal. lia.
Qed.

Lemma header_int z bs p obj : int_enc z bs -> int64 z -> header (bs ++ p) obj = Ok (IVal (VInt z) p).
Proof.
  intros H Hz. destruct H as [z H|z H|h k bs HI Hb|h k bs HI Hb].
  - apply header_posfix, H.
  - apply header_negfix, H.
  - pose proof (bytes_num _ _ Hb) as HN.
    cbn [In] in HI. destruct HI as [E|[E|[E|[E|[]]]]]; inversion E; subst; hd; fix_ok Hb; try reflexivity.
    unfold sext. change (2 ^ (64 - 1)) with two63. unfold int64 in Hz.
    destruct (num bs <? two63) eqn:E2; [reflexivity|lia].
  - cbn [In] in HI. destruct HI as [E|[E|[E|[E|[]]]]]; inversion E; subst; hd; fix_ok Hb; reflexivity.
Qed.

Lemma header_str n hd s p obj : str_hdr n hd -> n = zlen s ->
  header (hd ++ s ++ p) obj = let! u := utf8_decode s in Ok (IVal (VStr u) p).
Proof.
  intros [[H ->]|H] E.
  - cbn [app]. rewrite header_small by lia. replace (160 <=? 160 + n) with true by lia.
    apply raw_trail_app. lia.
  - destruct H as [h k bs HI Hb HN]. cbn [app]. rewrite <- HN in E.
    cbn [In] in HI. destruct HI as [E1|[E1|[E1|[]]]]; inversion E1; subst h k; hd; fix_ok Hb;
      apply raw_trail_app; exact E.
Qed.
Lemma header_bin n hd s p obj : bin_hdr n hd -> n = zlen s ->
  header (hd ++ s ++ p) obj = Ok (IVal (VBytes s) p).
Proof.
  intros H E. destruct H as [h k bs HI Hb HN]. cbn [app]. rewrite <- HN in E.
  cbn [In] in HI. destruct HI as [E1|[E1|[E1|[]]]]; inversion E1; subst h k; hd; fix_ok Hb;
      apply bin_trail_app; exact E.
Qed.
Lemma header_arr n hd p obj : arr_hdr n hd -> header (hd ++ p) obj = Ok (IArray n p).
Proof.
  intros [[H ->]|H].
  - cbn [app]. rewrite header_small by lia. replace (160 <=? 144 + n) with false by lia.
    replace (144 <=? 144 + n) with true by lia. do 2 f_equal. lia.
  - destruct H as [h k bs HI Hb HN]. cbn [app]. rewrite <- HN.
    cbn [In] in HI. destruct HI as [E1|[E1|[]]]; inversion E1; subst h k; hd; fix_ok Hb; reflexivity.
Qed.
Lemma header_map n hd p obj : map_hdr n hd -> header (hd ++ p) obj = Ok (IMap n p).
Proof.
  intros [[H ->]|H].
  - cbn [app]. rewrite header_small by lia. replace (160 <=? 128 + n) with false by lia.
    replace (144 <=? 128 + n) with false by lia. do 2 f_equal. lia.
  - destruct H as [h k bs HI Hb HN]. cbn [app]. rewrite <- HN.
    cbn [In] in HI. destruct HI as [E1|[E1|[]]]; inversion E1; subst h k; hd; fix_ok Hb; reflexivity.
Qed.
Lemma header_f32 bs p obj : bytes 4 bs ->
  header ((202 :: bs) ++ p) obj = Ok (IVal (VFloat (widen (num bs))) p).
Proof. intros Hb. hd. fix_ok Hb. reflexivity. Qed.
Lemma header_f64 bs p obj : bytes 8 bs ->
  header ((203 :: bs) ++ p) obj = Ok (IVal (VFloat (num bs)) p).
Proof. intros Hb. hd. fix_ok Hb. reflexivity. Qed.

Lemma ext_trail_app obj n0 ty s p n : n = 1 + zlen s ->
  ext_trail keq ts_double rec obj n0 (ty :: s ++ p) n =
  ext_value keq ts_double rec obj (ty :: s ++ p) n p.
Proof.
  intros ->. unfold ext_trail. pose proof (zlen_nonneg s). pose proof (zlen_nonneg p).
  destruct (1 + zlen s =? 0) eqn:E; [lia|].
  rewrite zlen_cons, zlen_app. destruct (1 + (zlen s + zlen p) <? 1 + zlen s) eqn:E2; [lia|].
  change (ty :: s ++ p) with ((ty :: s) ++ p) at 2. rewrite advance_app; [reflexivity|].
  rewrite zlen_cons. lia.
Qed.

(** Any extension other than a timestamp reaches the hook with its body. *)
Lemma header_ext ty n hd s p obj : ext_hdr ty n hd -> n = zlen s -> 0 <= ty < 128 ->
  header (hd ++ s ++ p) obj =
  let! o := ext_hook keq rec ty (s ++ p) n in Ok (IVal o p).
Proof.
  intros H E Hty.
  assert (HV : n < 2 ^ 32 - 1 -> ext_value keq ts_double rec obj (ty :: s ++ p) (1 + zlen s) p =
    let! o := ext_hook keq rec ty (s ++ p) n in Ok (IVal o p)).
  { intros HB. unfold ext_value, rd. cbn [nth_error bind tl].
    unfold sext. change (2 ^ (8 - 1)) with 128. replace (ty <? 128) with true by lia.
    replace (ty =? -1) with false by lia. cbn zeta.
    replace ((1 + zlen s - 1) mod two32) with n by (unfold two32; pose proof (zlen_nonneg s); lia).
    reflexivity. }
  destruct H as [h HI|hd H HB].
  - cbn [In] in HI. destruct HI as [E1|[E1|[E1|[E1|[E1|[]]]]]]; injection E1 as <- Hn; rewrite <- HV by lia; hd;
    rewrite ext_trail_app by lia; f_equal; lia.
  - destruct H as [h k bs HI Hb HN]. rewrite <- app_assoc. cbn [app].
    assert (HM : (num bs + 1) mod two32 = 1 + zlen s).
    { unfold two32. pose proof (zlen_nonneg s). lia. }
    cbn [In] in HI. destruct HI as [E1|[E1|[E1|[]]]]; inversion E1; subst h k; hd; fix_ok Hb;
    rewrite HM, ext_trail_app by lia; apply HV; lia.
Qed.
End Headers.

(** ** Sets and arrays in extensions *)

Lemma set_emplace_distinct l : forall s, Forall can_hash l -> distinct keq (s ++ l) ->
  set_emplace_all keq s l = Ok (s ++ l).
Proof.
  induction l as [|x l IH]; intros s HC HD; cbn [set_emplace_all]; [rewrite app_nil_r; reflexivity|].
  inversion HC; subst. rewrite can_hash_hashable by assumption. cbn [negb].
  destruct (existsb (fun e => keq e x) s) eqn:E.
  - apply existsb_exists in E. destruct E as (e & He & HE). apply in_split in He.
    destruct He as (a & b & ->). exfalso.
    rewrite (HD a e b x l) in HE; [discriminate|]. rewrite <- app_assoc. reflexivity.
  - rewrite IH; rewrite <- ?app_assoc; auto.
Qed.

Lemma dict_emplace_distinct d k v : can_hash k -> distinct keq (map fst d ++ [k]) ->
  dict_emplace keq d k v = Ok (d ++ [(k, v)]).
Proof.
  intros HC HD. unfold dict_emplace. rewrite can_hash_hashable by assumption. cbn [negb].
  destruct (existsb (fun e => keq (fst e) k) d) eqn:E; [|reflexivity].
  apply existsb_exists in E. destruct E as (e & He & HE). apply in_split in He.
  destruct He as (a & b & ->). exfalso.
  rewrite (HD (map fst a) (fst e) (map fst b) k []) in HE; [discriminate|].
  rewrite map_app, <- app_assoc. reflexivity.
Qed.

Lemma distinct_prefix a b : distinct keq (a ++ b) -> distinct keq a.
Proof.
  intros H p x q y r ->. apply (H p x q y (r ++ b)).
  rewrite <- app_assoc. cbn [app]. rewrite <- app_assoc. reflexivity.
Qed.


(** ** The header loop *)

Definition rest (it : item) : list Z :=
  match it with IVal _ p | IArray _ p | IMap _ p => p | IEnd _ => [] end.

Lemma advance_len p n : (length (advance p n) <= length p)%nat.
Proof. unfold advance. rewrite skipn_length. lia. Qed.

Section Loop.
Variable rec : list Z -> bool -> res value.
Notation header := (header keq ts_double rec widen).

Definition within (q : list Z) (r : res item) : Prop :=
  forall it, r = Ok it -> (length (rest it) <= length q)%nat.

Lemma within_ok q it : (length (rest it) <= length q)%nat -> within q (Ok it).
Proof. intros H it' E. inversion E; subst. exact H. Qed.
Lemma within_bind {A} q (r : res A) k : (forall x, within q (k x)) -> within q (bind r k).
Proof. intros H it E. destruct r; cbn [bind] in E; try discriminate. eapply H, E. Qed.
Lemma within_if q (b : bool) x y : within q x -> within q y -> within q (if b then x else y).
Proof. destruct b; auto. Qed.
Lemma within_le q q' r : (length q' <= length q)%nat -> within q' r -> within q r.
Proof. intros H W it E. specialize (W it E). lia. Qed.

Lemma raw_within n0 p n : within p (raw_trail n0 p n).
Proof.
  unfold raw_trail, raw_value. repeat first [apply within_if|apply within_bind; intros|apply within_ok];
  cbn [rest length]; try apply advance_len; lia.
Qed.
Lemma bin_within n0 p n : within p (bin_trail n0 p n).
Proof.
  unfold bin_trail, bin_value. repeat first [apply within_if|apply within_bind; intros|apply within_ok];
  cbn [rest length]; try apply advance_len; lia.
Qed.
Lemma ext_within obj n0 p n : within p (ext_trail keq ts_double rec obj n0 p n).
Proof.
  unfold ext_trail, ext_value. repeat first [apply within_if|apply within_bind; intros|apply within_ok
   |match goal with |- within _ (match ?x with _ => _ end) => destruct x end];
  cbn [rest length]; try apply advance_len; lia.
Qed.

Lemma header_within b q obj : within q (header (b :: q) obj).
Proof.
  unfold MsgModel.header, fixed_trail, rd. cbn [nth_error bind tl].
  repeat first [eapply within_le; [|first [apply raw_within|apply bin_within|apply ext_within]]
   |apply within_if|apply within_bind; intros|apply within_ok];
  cbn [rest length]; try apply advance_len; lia.
Qed.

Lemma header_progress p obj it : header p obj = Ok it -> p <> [] /\ (length (rest it) < length p)%nat.
Proof.
  destruct p as [|b q]; [discriminate|]. intros H. split; [discriminate|].
  apply header_within in H. cbn [length]. lia.
Qed.

Variable ul : bool.
Notation execute := (execute keq ts_double rec ul widen).

Lemma execute_fuel : forall f f' p obj stk, (length p < f)%nat -> (length p < f')%nat ->
  execute f p obj stk = execute f' p obj stk.
Proof.
  induction f as [|f IH]; intros f' p obj stk H H'; [lia|].
  destruct f' as [|f']; [lia|]. cbn [MsgModel.execute]. destruct p as [|b q]; [reflexivity|].
  destruct (header (b :: q) obj) as [it| | |] eqn:E; cbn [bind]; try reflexivity.
  apply header_progress in E. destruct E as [_ E].
  assert (HP : forall v p', (length p' < length (b :: q))%nat ->
    (let! r := push keq ul v stk in match r with inl v => Ok (Finish v p') | inr (o, s) => execute f p' o s end)
    = (let! r := push keq ul v stk in match r with inl v => Ok (Finish v p') | inr (o, s) => execute f' p' o s end)).
  { intros v p' HL. destruct (push keq ul v stk) as [[w|[o s]]| | |]; cbn [bind]; try reflexivity.
    apply IH; lia. }
  destruct it as [v p'|n p'|n p'|r]; cbn [rest] in E; [apply HP, E| | |reflexivity].
  - destruct (start_container _ _ _ _) as [[r|[fr|v]]| | |]; cbn [bind]; try reflexivity.
    + apply IH; lia.
    + apply HP, E.
  - destruct (start_container _ _ _ _) as [[r|[fr|v]]| | |]; cbn [bind]; try reflexivity.
    + apply IH; lia.
    + apply HP, E.
Qed.

(** The loop with exactly the fuel [unpackb] gives it, and its continuation after a value. *)
Definition run (p : list Z) (obj : value) (stk : list frame) : res outcome :=
  execute (S (length p)) p obj stk.
Definition after (v : value) (stk : list frame) (p : list Z) : res outcome :=
  let! r := push keq ul v stk in
  match r with inl v => Ok (Finish v p) | inr (o, s) => run p o s end.

Lemma run_unfold p obj stk : p <> [] ->
  run p obj stk =
  let! it := header p obj in
  match it with
  | IEnd ret => Ok (Ret ret)
  | IVal v p' => after v stk p'
  | IArray n p' =>
      let! s := start_container n (FArray n 0 []) (mk_array ul []) stk in
      match s with
      | inl ret => Ok (Ret ret) | inr (inr v) => after v stk p' | inr (inl fr) => run p' obj (fr :: stk)
      end
  | IMap n p' =>
      let! s := start_container n (FMapKey n 0 []) (VDict []) stk in
      match s with
      | inl ret => Ok (Ret ret) | inr (inr v) => after v stk p' | inr (inl fr) => run p' obj (fr :: stk)
      end
  end.
Proof.
  intros H. unfold run at 1. cbn [MsgModel.execute]. destruct p as [|b q]; [congruence|].
  destruct (header (b :: q) obj) as [it| | |] eqn:E; cbn [bind]; try reflexivity.
  apply header_progress in E. destruct E as [_ E].
  assert (HP : forall v p', (length p' < length (b :: q))%nat ->
    (let! r := push keq ul v stk in match r with inl v => Ok (Finish v p') | inr (o, s) => execute (length (b :: q)) p' o s end)
    = after v stk p').
  { intros v p' HL. unfold after. destruct (push keq ul v stk) as [[w|[o s]]| | |]; cbn [bind]; try reflexivity.
    unfold run. apply execute_fuel; lia. }
  destruct it as [v p'|n p'|n p'|r]; cbn [rest] in E; [apply HP, E| | |reflexivity].
  - destruct (start_container _ _ _ _) as [[r|[fr|v]]| | |]; cbn [bind]; try reflexivity.
    + unfold run. apply execute_fuel; lia.
    + apply HP, E.
  - destruct (start_container _ _ _ _) as [[r|[fr|v]]| | |]; cbn [bind]; try reflexivity.
    + unfold run. apply execute_fuel; lia.
    + apply HP, E.
Qed.

Lemma run_val p obj stk v p' : header p obj = Ok (IVal v p') -> run p obj stk = after v stk p'.
Proof.
  intros H. destruct (header_progress _ _ _ H) as [HN _].
  rewrite run_unfold, H by assumption. reflexivity.
Qed.
Lemma run_array p obj stk n p' : header p obj = Ok (IArray n p') -> zlen stk < 1024 ->
  run p obj stk = if n =? 0 then after (mk_array ul []) stk p' else run p' obj (FArray n 0 [] :: stk).
Proof.
  intros H HS. destruct (header_progress _ _ _ H) as [HN _].
  rewrite run_unfold, H by assumption. cbn [bind]. unfold start_container, STACK_SIZE.
  destruct (zlen stk >=? 1024) eqn:E; [lia|]. destruct (zlen stk <? 1024) eqn:E2; [|lia]. cbn [negb].
  destruct (n =? 0); reflexivity.
Qed.
Lemma run_map p obj stk n p' : header p obj = Ok (IMap n p') -> zlen stk < 1024 ->
  run p obj stk = if n =? 0 then after (VDict []) stk p' else run p' obj (FMapKey n 0 [] :: stk).
Proof.
  intros H HS. destruct (header_progress _ _ _ H) as [HN _].
  rewrite run_unfold, H by assumption. cbn [bind]. unfold start_container, STACK_SIZE.
  destruct (zlen stk >=? 1024) eqn:E; [lia|]. destruct (zlen stk <? 1024) eqn:E2; [|lia]. cbn [negb].
  destruct (n =? 0); reflexivity.
Qed.
End Loop.

(** ** Decoding any encoding *)

Variable text : list Z -> list Z -> Prop.
Hypothesis TEXT : forall u s, text u s -> utf8_decode s = Ok u.

Scheme enc_mut := Minimality for enc Sort Prop
  with enc_list_mut := Minimality for enc_list Sort Prop
  with enc_pairs_mut := Minimality for enc_pairs Sort Prop.

Notation unpackb := (unpackb keq ts_double widen).

Lemma unpackb_finish ul D bs v : run (unpackb D) ul bs VNil [] = Ok (Finish v []) ->
  unpackb (S D) bs ul = Ok v.
Proof.
  intros H. cbn [MsgModel.unpackb]. unfold unpackb_body. unfold run in H. rewrite H. reflexivity.
Qed.

Definition P_enc (ul : bool) (n d : nat) (v : value) (bs : list Z) : Prop :=
  forall D p obj stk, (d <= D)%nat -> zlen stk + Z.of_nat n <= 1024 ->
  run (unpackb D) ul (bs ++ p) obj stk = after (unpackb D) ul v stk p.
Definition P_list (ul : bool) (n d : nat) (l : list value) (bs : list Z) : Prop :=
  forall D p obj stk size count items, (d <= D)%nat -> zlen stk + 1 + Z.of_nat n <= 1024 -> l <> [] ->
  size = count + zlen l ->
  run (unpackb D) ul (bs ++ p) obj (FArray size count items :: stk) =
  after (unpackb D) ul (mk_array ul (items ++ l)) stk p.
Definition P_pairs (ul : bool) (n d : nat) (l : list (value * value)) (bs : list Z) : Prop :=
  forall D p obj stk size count items, (d <= D)%nat -> zlen stk + 1 + Z.of_nat n <= 1024 -> l <> [] ->
  size = count + zlen l ->
  Forall can_hash (map fst l) -> distinct keq (map fst (items ++ l)) ->
  run (unpackb D) ul (bs ++ p) obj (FMapKey size count items :: stk) =
  after (unpackb D) ul (VDict (items ++ l)) stk p.

Lemma after_array rec ul v size count items stk p :
  after rec ul v (FArray size count items :: stk) p =
  if count + 1 =? size then after rec ul (mk_array ul (items ++ [v])) stk p
  else run rec ul p v (FArray size (count + 1) (items ++ [v]) :: stk).
Proof. unfold after. cbn [push]. destruct (count + 1 =? size); reflexivity. Qed.
Lemma after_key rec ul v size count items stk p :
  after rec ul v (FMapKey size count items :: stk) p =
  run rec ul p v (FMapValue size count items v :: stk).
Proof. reflexivity. Qed.
Lemma after_value rec ul v size count items k stk p :
  can_hash k -> distinct keq (map fst items ++ [k]) ->
  after rec ul v (FMapValue size count items k :: stk) p =
  if count + 1 =? size then after rec ul (VDict (items ++ [(k, v)])) stk p
  else run rec ul p v (FMapKey size (count + 1) (items ++ [(k, v)]) :: stk).
Proof.
  intros HC HD. unfold after. cbn [push]. rewrite dict_emplace_distinct by assumption. cbn [bind].
  destruct (count + 1 =? size); reflexivity.
Qed.

Lemma decode_enc : forall ul n d v bs, enc text widen keq ul n d v bs -> P_enc ul n d v bs.
Proof.
  apply (enc_mut text widen keq P_enc P_list P_pairs); unfold P_enc, P_list, P_pairs.
  - intros; apply run_val; reflexivity.
  - intros; apply run_val; reflexivity.
  - intros; apply run_val; reflexivity.
  - intros; apply run_val. apply header_int; assumption.
  - intros; apply run_val. apply header_f32; assumption.
  - intros; apply run_val. apply header_f64; assumption.
  - intros; apply run_val. rewrite <- app_assoc. eapply header_bin; eauto.
  - intros; apply run_val. rewrite <- app_assoc. erewrite header_str by eauto.
    erewrite TEXT by eauto. reflexivity.
  - intros n d l hd bs Hh HE IH D p obj stk HD HS.
    rewrite <- app_assoc. rewrite (run_array _ _ _ _ _ _ _ (header_arr _ _ _ _ _ Hh)) by lia.
    destruct (zlen l =? 0) eqn:E.
    + destruct l; [|rewrite zlen_cons in E; pose proof (zlen_nonneg l); lia].
      inversion HE; subst. reflexivity.
    + rewrite (IH D p obj stk _ _ []) by (try reflexivity; try lia; try (destruct l; [discriminate E|discriminate])).
      reflexivity.
  - intros n d l hd bs Hh HE IH D p obj stk HD HS.
    rewrite <- app_assoc. rewrite (run_array _ _ _ _ _ _ _ (header_arr _ _ _ _ _ Hh)) by lia.
    destruct (zlen l =? 0) eqn:E.
    + destruct l; [|rewrite zlen_cons in E; pose proof (zlen_nonneg l); lia].
      inversion HE; subst. reflexivity.
    + rewrite (IH D p obj stk _ _ []) by (try reflexivity; try lia; try (destruct l; [discriminate E|discriminate])).
      reflexivity.
  - intros ul n d l hd bs Hh HE IH HC HDi D p obj stk HD HS.
    rewrite <- app_assoc. rewrite (run_map _ _ _ _ _ _ _ (header_map _ _ _ _ _ Hh)) by lia.
    destruct (zlen l =? 0) eqn:E.
    + destruct l; [|rewrite zlen_cons in E; pose proof (zlen_nonneg l); lia].
      inversion HE; subst. reflexivity.
    + rewrite (IH D p obj stk _ _ []) by (try reflexivity; try assumption; try lia; try (destruct l; [discriminate E|discriminate])).
      reflexivity.
  - intros ul n d m l hd bs HE IH Hm HC HDi Hh D p obj stk HD HS.
    apply run_val. rewrite <- app_assoc. rewrite (header_ext _ _ _ _ _ _ _ Hh eq_refl) by lia.
    unfold ext_hook. change (9 =? kRuntimeSet) with true. cbv iota.
    rewrite slice_app by reflexivity. cbn [bind].
    destruct D as [|D]; [lia|].
    rewrite (unpackb_finish false D bs (VTuple l)).
    + cbn [bind]. rewrite set_emplace_distinct by assumption. reflexivity.
    + specialize (IH D [] VNil [] ltac:(lia)). rewrite app_nil_r in IH. rewrite IH by (rewrite zlen_nil; lia).
      reflexivity.
  - intros ul n d code bits lanes shape data lb nb sb hd HG Hlb Hl Hnb Hn HB Hsb Hh D p obj stk HD HS.
    apply run_val. rewrite <- app_assoc. rewrite (header_ext _ _ _ _ _ _ _ Hh eq_refl) by lia.
    unfold ext_hook. change (2 =? kRuntimeSet) with false. change (2 =? kRuntimeNDArray) with true. cbv iota.
    assert (HZ : zlen ([code; bits] ++ lb ++ nb ++ concat sb ++ data) < 2 ^ 32 - 1).
    { eapply ext_hdr_bound, Hh. }
    erewrite unpack_nd_ok by eassumption. reflexivity.
  - congruence.
  - intros ul n d x l bx bl _ IHx HE IHl D p obj stk size count items HD HS HN Hsz.
    rewrite <- app_assoc. rewrite IHx by (rewrite ?zlen_cons; lia). rewrite after_array. rewrite zlen_cons in Hsz.
    destruct (count + 1 =? size) eqn:E.
    + destruct l as [|y l]; [|rewrite zlen_cons in Hsz; pose proof (zlen_nonneg l); lia].
      inversion HE; subst. reflexivity.
    + rewrite IHl by (try lia; try (destruct l; [rewrite zlen_nil in Hsz; lia|discriminate])).
      rewrite <- app_assoc. reflexivity.
  - congruence.
  - intros ul n d k x l bk bx bl _ IHk _ IHx HE IHl D p obj stk size count items HD HS HN Hsz HC HDi.
    cbn [map fst] in HC. inversion HC as [|? ? HCk HCl]; subst. clear HC.
    assert (HDk : distinct keq (map fst items ++ [k])).
    { rewrite map_app in HDi. cbn [map fst] in HDi. change (k :: map fst l) with ([k] ++ map fst l) in HDi.
      rewrite app_assoc in HDi. apply distinct_prefix in HDi. exact HDi. }
    rewrite <- !app_assoc. rewrite IHk by (rewrite ?zlen_cons; lia). rewrite after_key.
    rewrite IHx by (rewrite ?zlen_cons; lia). rewrite after_value by assumption.
    rewrite zlen_cons.
    destruct (count + 1 =? count + (1 + zlen l)) eqn:E.
    + destruct l as [|y l]; [|rewrite zlen_cons in E; pose proof (zlen_nonneg l); lia].
      inversion HE; subst. reflexivity.
    + rewrite IHl; rewrite <- ?app_assoc; try assumption; try lia; try reflexivity.
      destruct l; [rewrite zlen_nil in E; lia|discriminate].
Qed.

Lemma decode_valid ul n d v bs : enc text widen keq ul n d v bs -> (n <= 1024)%nat ->
  forall D, (d < D)%nat -> unpackb D bs ul = Ok v.
Proof.
  intros H Hn D HD. destruct D as [|D]; [lia|]. apply unpackb_finish.
  pose proof (decode_enc _ _ _ _ _ H D [] VNil [] ltac:(lia)) as HE.
  rewrite app_nil_r in HE. rewrite HE by (rewrite zlen_nil; lia). reflexivity.
Qed.
End Decode.

(** ** What the packer writes *)

Lemma lor_add a n k : 0 <= k -> 0 <= n < 2 ^ k -> a mod 2 ^ k = 0 -> Z.lor a n = a + n.
Proof.
  intros Hk Hn Ha. rewrite <- Z.lxor_lor, <- Z.add_nocarry_lxor; auto.
  all: apply Z.bits_inj_0; intros i; rewrite Z.land_spec.
  all: destruct (Z.ltb_spec i 0); [rewrite Z.testbit_neg_r by lia; reflexivity|].
  all: destruct (Z.ltb_spec i k).
  all: try (rewrite <- (Z.mod_pow2_bits_low a k i) by lia; rewrite Ha, Z.testbit_0_l; reflexivity).
  all: rewrite <- (Z.mod_small n (2 ^ k)) by lia; rewrite Z.mod_pow2_bits_high by lia; apply andb_false_r.
Qed.

Lemma be_sized l h k n : In (h, k) l -> 0 <= n < 256 ^ Z.of_nat k -> sized l n (h :: be k n).
Proof.
  intros HI Hn. econstructor; [exact HI|apply be_bytes|]. rewrite num_be. apply Z.mod_small, Hn.
Qed.
Lemma be1 n : 0 <= n < 256 -> [n] = be 1 n.
Proof. intros. cbn [be]. change (256 ^ Z.of_nat 0) with 1. rewrite Z.div_1_r, Z.mod_small by lia. reflexivity. Qed.

Lemma pack_array_hdr n : 0 <= n < 2 ^ 32 -> arr_hdr n (pack_array n).
Proof.
  intros H. unfold pack_array, arr_hdr. destruct (n <? 16) eqn:E1.
  - left. rewrite (lor_add 144 n 4) by (try reflexivity; lia). split; [lia|reflexivity].
  - right. destruct (n <? 65536) eqn:E2; apply be_sized; cbn [In]; auto;
    cbn [Z.of_nat Pos.of_succ_nat Pos.succ]; lia.
Qed.
Lemma pack_map_hdr n : 0 <= n < 2 ^ 32 -> map_hdr n (pack_map n).
Proof.
  intros H. unfold pack_map, map_hdr. destruct (n <? 16) eqn:E1.
  - left. rewrite (lor_add 128 n 4) by (try reflexivity; lia). split; [lia|reflexivity].
  - right. destruct (n <? 65536) eqn:E2; apply be_sized; cbn [In]; auto;
    cbn [Z.of_nat Pos.of_succ_nat Pos.succ]; lia.
Qed.
Lemma pack_raw_hdr n : 0 <= n < 2 ^ 32 -> str_hdr n (pack_raw n).
Proof.
  intros H. unfold pack_raw, str_hdr. destruct (n <? 32) eqn:E1.
  - left. rewrite (lor_add 160 n 5) by (try reflexivity; lia). split; [lia|reflexivity].
  - right. destruct (n <? 256) eqn:E3; [rewrite (be1 n) by lia|destruct (n <? 65536) eqn:E2]; apply be_sized; cbn [In]; auto;
    cbn [Z.of_nat Pos.of_succ_nat Pos.succ]; lia.
Qed.
Lemma pack_bin_hdr n : 0 <= n < 2 ^ 32 -> bin_hdr n (pack_bin n).
Proof.
  intros H. unfold pack_bin, bin_hdr.
  destruct (n <? 256) eqn:E3; [rewrite (be1 n) by lia|destruct (n <? 65536) eqn:E2]; apply be_sized; cbn [In]; auto;
    cbn [Z.of_nat Pos.of_succ_nat Pos.succ]; lia.
Qed.
Lemma pack_ext_hdr ty n : 0 <= n < 2 ^ 32 - 1 -> ext_hdr ty n (pack_ext ty n).
Proof.
  intros H. unfold pack_ext.
  destruct (n =? 1) eqn:E1; [apply eh_fix; cbn [In]; left; f_equal; lia|].
  destruct (n =? 2) eqn:E2; [apply eh_fix; cbn [In]; right; left; f_equal; lia|].
  destruct (n =? 4) eqn:E3; [apply eh_fix; cbn [In]; do 2 right; left; f_equal; lia|].
  destruct (n =? 8) eqn:E4; [apply eh_fix; cbn [In]; do 3 right; left; f_equal; lia|].
  destruct (n =? 16) eqn:E5; [apply eh_fix; cbn [In]; do 4 right; left; f_equal; lia|].
  destruct (n <? 256) eqn:E6;
    [change [199; n; ty] with ((199 :: [n]) ++ [ty]); rewrite (be1 n) by lia|destruct (n <? 65536) eqn:E7];
  rewrite ?app_comm_cons; apply eh_ext; try lia; apply be_sized; cbn [In]; auto;
    cbn [Z.of_nat Pos.of_succ_nat Pos.succ]; lia.
Qed.

Lemma pack_int_enc z : int64 z -> int_enc z (pack_int64 z).
Proof.
  unfold int64, two63. intros H. unfold pack_int64.
  assert (U : forall h k, In (h, k) [(204, 1%nat); (205, 2%nat); (206, 4%nat); (207, 8%nat)] ->
    0 <= z < 256 ^ Z.of_nat k -> int_enc z (h :: be k z)).
  { intros h k HI Hz. replace z with (num (be k z)) at 1 by (rewrite num_be; apply Z.mod_small, Hz).
    eapply ie_uint; [exact HI|apply be_bytes]. }
  assert (I : forall h k, In (h, k) [(208, 1%nat); (209, 2%nat); (210, 4%nat); (211, 8%nat)] ->
    - 2 ^ (8 * Z.of_nat k - 1) <= z < 0 -> int_enc z (h :: be k z)).
  { intros h k HI Hz. replace z with (signed (8 * Z.of_nat k) (num (be k z))) at 1.
    - eapply ie_int; [exact HI|apply be_bytes].
    - rewrite num_be. unfold signed.
      replace (2 ^ (8 * Z.of_nat k)) with (256 ^ Z.of_nat k) by (rewrite Z.pow_mul_r by lia; reflexivity).
      assert (HP : 256 ^ Z.of_nat k = 2 * 2 ^ (8 * Z.of_nat k - 1)).
      { rewrite <- Z.pow_succ_r by (cbn [In] in HI; destruct HI as [E|[E|[E|[E|[]]]]]; inversion E; lia).
        replace (Z.succ (8 * Z.of_nat k - 1)) with (8 * Z.of_nat k) by lia.
        rewrite Z.pow_mul_r by lia. reflexivity. }
      assert (HM : z mod 256 ^ Z.of_nat k = z + 256 ^ Z.of_nat k).
      { rewrite <- (Z.mod_add z 1) by lia. rewrite Z.mul_1_l. apply Z.mod_small. lia. }
      rewrite HM. destruct (z + 256 ^ Z.of_nat k <? 2 ^ (8 * Z.of_nat k - 1)) eqn:E; lia. }
  assert (B1 : [z mod 256] = be 1 z).
  { cbn [be]. change (256 ^ Z.of_nat 0) with 1. rewrite Z.div_1_r. reflexivity. }
  destruct (z <? - 2 ^ 5) eqn:E1; [destruct (z <? - 2 ^ 15) eqn:E2;
    [destruct (z <? - 2 ^ 31) eqn:E3|destruct (z <? - 2 ^ 7) eqn:E3; [|rewrite B1]]|
    destruct (z <? 2 ^ 7) eqn:E2;
      [|destruct (z <? 2 ^ 16) eqn:E3; [destruct (z <? 2 ^ 8) eqn:E4; [rewrite B1|]|destruct (z <? 2 ^ 32) eqn:E4]]].
  5: { destruct (Z.ltb_spec z 0).
       - replace (z mod 256) with (256 + z) by lia. apply ie_negfix. lia.
       - rewrite Z.mod_small by lia. apply ie_posfix. lia. }
  all: first [apply U; [solve [cbn [In]; auto 6]|]|apply I; [solve [cbn [In]; auto 6]|]];
    repeat match goal with |- context [?b ^ ?e] => let v := eval vm_compute in (b ^ e) in change (b ^ e) with v end; lia.
Qed.
