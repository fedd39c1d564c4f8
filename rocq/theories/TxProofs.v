(** Proofs about the text operators. *)
From Verif Require Import Base ListAux Utf8Model Utf8Spec TrModel TxModel TxSpec.
From Verif Require TrSpec TrSearch TrProofs Utf8Proofs Utf8Props.
From Coq Require Import Sorted Lia.
Local Open Scope Z_scope.

Definition byte (c : Z) : Prop := 0 <= c < 256.
Definition clean (w : list Z) : Prop := Forall (fun c => 0 < c < 256) w.

Lemma clean_byte w : clean w -> Forall byte w.
Proof. apply Forall_impl. unfold byte. intros; lia. Qed.
Lemma clean_zero w k r : clean w -> w <> k ++ 0 :: r.
Proof. intros H ->. apply Forall_app in H as [_ H]. inversion H. lia. Qed.

Lemma Forall_firstn {A} (P : A -> Prop) n l : Forall P l -> Forall P (firstn n l).
Proof. intros H. rewrite <- (firstn_skipn n l) in H. now apply Forall_app in H. Qed.
Lemma Forall_skipn {A} (P : A -> Prop) n l : Forall P l -> Forall P (skipn n l).
Proof. intros H. rewrite <- (firstn_skipn n l) in H. now apply Forall_app in H. Qed.

(** The search: the longest known prefix. *)
Definition deep (d : TrSpec.dict) : Prop :=
  forall w, (length (filter (fun n => match d (firstn n w) with Some _ => true | None => false end) (seq 1 (length w))) <= 64)%nat.

Lemma matches_count (d : TrSpec.dict) w : forall l : list nat,
  length (flat_map (fun n => match d (TrSpec.coded (TrSpec.prefix n (Bytes w))) with Some v => [(Z.of_nat n, v)] | None => [] end) l)
  = length (filter (fun n => match d (firstn n w) with Some _ => true | None => false end) l).
Proof.
  induction l as [|n l IH]; [easy|]. cbn [flat_map filter]. rewrite app_length, IH. cbn [TrSpec.prefix TrSpec.coded].
  now destruct (d (firstn n w)).
Qed.

Lemma search_near t d w val : TrProofs.Holds t d ->
  (length (filter (fun n => match d (firstn n w) with Some _ => true | None => false end) (seq 1 (length w))) <= 64)%nat -> clean w ->
  exists n v, search t w val = Ok (Z.of_nat n, v) /\ (n <= length w)%nat /\
    ((n = O /\ v = val) \/ ((0 < n)%nat /\ d (firstn n w) = Some v)) /\
    forall m, (n < m <= length w)%nat -> d (firstn m w) = None.
Proof.
  intros H D W. unfold search.
  rewrite (TrProofs.search_holds t d w H (clean_byte _ W)) by (intros k r E; now elim (clean_zero w k r W)).
  cbn [bind]. rewrite <- TrProofs.matches_bytes.
  rewrite TrProofs.results_ok by (unfold TrSpec.matches; cbn [chars]; rewrite matches_count; exact D).
  cbn [bind]. unfold longest.
  rewrite TrProofs.longest_last; [|apply TrProofs.matches_sorted|].
  2: { intros x I. destruct x as [n v]. apply TrProofs.matches_in in I as (m & -> & L & _). cbn. lia. }
  destruct (TrSpec.matches d (Bytes w)) as [|a l] eqn:EM.
  - exists O, val. split; [reflexivity|]. split; [lia|]. split; [now left|].
    intros m L. destruct (d (firstn m w)) as [v|] eqn:E; [|easy].
    assert (I : In (Z.of_nat m, v) (TrSpec.matches d (Bytes w))).
    { apply TrProofs.matches_in. exists m. cbn. repeat split; try lia. exact E. }
    rewrite EM in I. easy.
  - rewrite <- EM. destruct (TrProofs.last_greatest (TrSpec.matches d (Bytes w)) (0, val) (TrProofs.matches_sorted d _)) as [I G]; [rewrite EM; easy|].
    destruct (last (TrSpec.matches d (Bytes w)) (0, val)) as [z v].
    apply TrProofs.matches_in in I as (n & -> & L & DV). cbn in L, DV.
    exists n, v. split; [reflexivity|]. split; [lia|]. split; [right; split; [lia|exact DV]|].
    intros m L'. destruct (d (firstn m w)) as [v'|] eqn:E; [|easy].
    assert (I : In (Z.of_nat m, v') (TrSpec.matches d (Bytes w))).
    { apply TrProofs.matches_in. exists m. cbn. repeat split; try lia. exact E. }
    apply G in I. cbn in I. lia.
Qed.
Lemma search_ok t d w val : TrProofs.Holds t d -> deep d -> clean w ->
  exists n v, search t w val = Ok (Z.of_nat n, v) /\ (n <= length w)%nat /\
    ((n = O /\ v = val) \/ ((0 < n)%nat /\ d (firstn n w) = Some v)) /\
    forall m, (n < m <= length w)%nat -> d (firstn m w) = None.
Proof. intros H D. now apply search_near. Qed.
Lemma search_far t d w val : TrProofs.Holds t d ->
  (64 < length (filter (fun n => match d (firstn n w) with Some _ => true | None => false end) (seq 1 (length w))))%nat -> clean w ->
  search t w val = UB.
Proof.
  intros H D W. unfold search.
  rewrite (TrProofs.search_holds t d w H (clean_byte _ W)) by (intros k r E; now elim (clean_zero w k r W)).
  cbn [bind]. rewrite <- TrProofs.matches_bytes. unfold results.
  assert (L : (64 < length (TrSpec.matches d (Bytes w)))%nat) by (unfold TrSpec.matches; cbn [chars]; rewrite matches_count; exact D).
  destruct (Nat.ltb_spec 64 (length (TrSpec.matches d (Bytes w)))); [reflexivity|lia].
Qed.

(** Longest known pieces *)
Lemma longest_char has q cs : forall N n, (n <= N)%nat ->
  (n = O \/ has (q ++ firstn n cs) = true) ->
  (forall m, (n < m <= N)%nat -> has (q ++ firstn m cs) = false) ->
  longest_known has q cs N = n.
Proof.
  induction N as [|N IH]; intros n L H M; [cbn; lia|].
  cbn [longest_known]. destruct (Nat.eq_dec n (S N)) as [->|NE].
  - destruct H as [H|H]; [lia|]. now rewrite H.
  - rewrite M by lia. apply IH; [lia|easy|]. intros; apply M; lia.
Qed.
Lemma longest_spec has q cs : forall N, let n := longest_known has q cs N in
  (n <= N)%nat /\ (n = O \/ has (q ++ firstn n cs) = true) /\
  (forall m, (n < m <= N)%nat -> has (q ++ firstn m cs) = false).
Proof.
  induction N as [|N IH]; cbv zeta; cbn [longest_known]; [repeat split; auto; lia|].
  cbv zeta in IH. destruct IH as (A & B & C).
  destruct (has (q ++ firstn (S N) cs)) eqn:E; [repeat split; auto; lia|].
  repeat split; auto; try lia. intros m L. destruct (Nat.eq_dec m (S N)) as [->|]; [easy|]. apply C. lia.
Qed.

Lemma firstn_pre {A} (q cs : list A) n : firstn (length q + n) (q ++ cs) = q ++ firstn n cs.
Proof. rewrite firstn_app. rewrite firstn_all2 by lia. f_equal. f_equal. lia. Qed.

Definition has_of (d : TrSpec.dict) (k : list Z) : bool := match d k with Some _ => true | None => false end.

Lemma search_pre t d q cs val : TrProofs.Holds t d -> deep d -> clean q -> clean cs ->
  exists n v, search t (q ++ cs) val = Ok (Z.of_nat n, v) /\ (n <= length (q ++ cs))%nat /\
    (n - length q)%nat = longest_known (has_of d) q cs (length cs) /\
    ((length q < n)%nat -> d (firstn n (q ++ cs)) = Some v).
Proof.
  intros H D Q C. destruct (search_ok t d (q ++ cs) val H D) as (n & v & E & L & K & M).
  { now apply Forall_app. }
  exists n, v. split; [exact E|]. split; [exact L|]. rewrite app_length in *. split.
  - symmetry. apply longest_char; [lia| |].
    + destruct (Nat.le_gt_cases n (length q)) as [G|G]; [left; lia|right].
      destruct K as [[-> _]|[_ K]]; [lia|]. unfold has_of.
      rewrite <- firstn_pre. replace (length q + (n - length q))%nat with n by lia. now rewrite K.
    + intros m Lm. unfold has_of. rewrite <- firstn_pre. now rewrite M by lia.
  - intros G. destruct K as [[-> _]|[_ K]]; [lia|exact K].
Qed.

(** More fuel does not matter. *)
Lemma skipn_shorter {A} n (l : list A) : (0 < n <= length l)%nat -> (length (skipn n l) < length l)%nat.
Proof. intros. rewrite skipn_length. lia. Qed.

Lemma pieces_unfold fuel has pre first cs : cs <> [] -> (length cs <= fuel)%nat ->
  pieces fuel has pre first cs =
    let q := if first then [] else pre in
    match longest_known has q cs (length cs) with
    | O => None
    | n => match pieces (length (skipn n cs)) has pre false (skipn n cs) with
           | Some l => Some ((q ++ firstn n cs) :: l)
           | None => None
           end
    end.
Proof.
  assert (X : forall f g has pre first cs, (length cs <= f)%nat -> (length cs <= g)%nat ->
    pieces f has pre first cs = pieces g has pre first cs).
  { clear. induction f as [|f IH]; intros g has pre first [|c cs] F G; cbn [length] in *; try lia.
    - destruct g; reflexivity.
    - destruct g; reflexivity.
    - destruct g as [|g]; [lia|]. cbn [pieces length].
      pose proof (longest_spec has (if first then [] else pre) (c :: cs) (S (length cs))) as (L & _).
      set (n := longest_known _ _ _ _) in *. destruct n as [|n]; [reflexivity|].
      assert (S1 : (length (skipn (S n) (c :: cs)) < length (c :: cs))%nat) by (apply skipn_shorter; cbn [length]; lia).
      cbn [length] in S1. rewrite (IH g) by lia. reflexivity. }
  destruct cs as [|c cs]; [easy|]. intros _ F. cbn [length] in F. destruct fuel as [|f]; [lia|].
  cbn [pieces]. cbv zeta. destruct (longest_known _ _ (c :: cs) (length (c :: cs))) as [|n] eqn:E; [reflexivity|].
  rewrite (X f (length (skipn (S n) (c :: cs)))); [reflexivity| |lia].
  pose proof (longest_spec has (if first then [] else pre) (c :: cs) (length (c :: cs))) as (L & _). rewrite E in L.
  assert (S1 : (length (skipn (S n) (c :: cs)) < length (c :: cs))%nat) by (apply skipn_shorter; lia).
  cbn [length] in S1. lia.
Qed.

(** ** The tokenizer on bytes *)
Section Tokenizer.
Variables (T : tokenizer) (d : TrSpec.dict) (str : bool) (uid : Z).
Hypotheses (HT : TrProofs.Holds (vocab T) d) (HD : deep d) (HP : clean (prefix T))
  (HU : unk_id T = Some uid) (HB : Forall byte (unk T)).

Definition decoded (b : list Z) : list Z := match utf8_decode b with Ok cs => cs | _ => [] end.
Definition item_of (b : list Z) (v : Z) : item :=
  if lookup_id T then Id v else if str then Piece (Str (decoded b)) else Piece (Bytes b).
Definition sh (b : list Z) : item := item_of b (match d b with Some v => v | None => -1 end).

Lemma post_ok out b v : Forall byte b -> post T str out b (Some v) = Ok (out ++ [item_of b v]).
Proof.
  intros H. unfold post, item_of. destruct (lookup_id T); [reflexivity|]. destruct str; [|reflexivity].
  destruct (Utf8Props.C03_utf8_decode_total b) as (cs & E & _); [exact H|].
  unfold decoded. rewrite E. reflexivity.
Qed.
Lemma post_sh out b v : Forall byte b -> d b = Some v -> post T str out b (Some v) = Ok (out ++ [sh b]).
Proof. intros H E. rewrite post_ok by easy. unfold sh. now rewrite E. Qed.
Lemma unk_ok out : post_unk T str out = Ok (out ++ [item_of (unk T) uid]).
Proof. unfold post_unk. rewrite HU. now apply post_ok. Qed.
Lemma pop_ok base done : pop_back (length done) (base ++ done) = Ok base.
Proof.
  induction done as [|x done IH] using rev_ind; [now rewrite app_nil_r|].
  rewrite app_length. cbn [length]. rewrite Nat.add_1_r. cbn [pop_back].
  rewrite app_assoc, removelast_last. destruct ((base ++ done) ++ [x]) eqn:E; [now apply app_eq_nil in E as [_ E]|]. exact IH.
Qed.

Definition final (base done : list item) (r : option (list (list Z))) : list item :=
  match r with Some l => base ++ done ++ map sh l | None => base ++ [item_of (unk T) uid] end.

Lemma plain_loop_ok : forall fuel w value base done, prefix T = [] -> clean w -> w <> [] -> (length w < fuel)%nat ->
  plain_loop fuel T str w value (length done) (base ++ done)
  = Ok (final base done (pieces (length w) (has_of d) [] false w)).
Proof.
  induction fuel as [|fuel IH]; intros w value base done EP W NE F; [lia|].
  cbn [plain_loop]. destruct (Nat.ltb_spec 0 (length w)); [|destruct w; cbn in *; [easy|lia]].
  destruct (search_pre (vocab T) d [] w value HT HD (Forall_nil _) W) as (n & v & E & L & K & S).
  cbn [app length] in *. rewrite E. cbn [bind]. rewrite Nat2Z.id. rewrite Nat.sub_0_r in K.
  rewrite (pieces_unfold _ _ _ _ w NE (le_n _)). cbv zeta. rewrite <- K.
  assert (BF : forall n, Forall byte (firstn n w)) by (intros; apply Forall_firstn, clean_byte, W).
  destruct (Nat.eqb_spec n (length w)) as [EN|NN].
  - rewrite post_sh by (try apply BF; apply S; lia). destruct n as [|n']; [lia|].
    rewrite skipn_all2 by lia. cbn [pieces length app]. unfold final. cbn [map]. now rewrite app_assoc.
  - destruct (Nat.eqb_spec n 0) as [->|N0].
    + rewrite pop_ok. cbn [bind]. rewrite unk_ok. reflexivity.
    + rewrite post_sh by (try apply BF; apply S; lia). cbn [bind].
      rewrite <- app_assoc. replace (Datatypes.S (length done)) with (length (done ++ [sh (firstn n w)])) by (rewrite app_length; cbn; lia).
      rewrite IH; [|easy|now apply Forall_skipn|intros X; apply (f_equal (@length Z)) in X; rewrite skipn_length in X; cbn in X; lia|rewrite skipn_length; lia].
      destruct n as [|n']; [lia|]. cbn [app]. destruct (pieces _ _ _ false (skipn (Datatypes.S n') w)); unfold final; [|reflexivity].
      cbn [map]. now rewrite <- app_assoc.
Qed.

(** The buffer *)
Lemma written_ok l : written (map Some l) = Ok l.
Proof. induction l as [|c l IH]; [reflexivity|]. cbn. now rewrite IH. Qed.
(** [b] holds [l] at [at_] *)
Definition at_holds (b : buffer) (at_ : nat) (l : list Z) : Prop :=
  exists x y, b = x ++ map Some l ++ y /\ length x = at_.
Lemma bytes_at_ok b at_ l : at_holds b at_ l -> bytes_at b at_ (length l) = Ok l.
Proof.
  intros (x & y & -> & <-). unfold bytes_at. rewrite !app_length, map_length.
  destruct (Nat.ltb_spec (length x + (length l + length y)) (length x + length l)); [lia|].
  rewrite skipn_app, skipn_all2, Nat.sub_diag by lia. cbn [app skipn].
  rewrite firstn_app, firstn_all2 by (rewrite map_length; lia). rewrite map_length, Nat.sub_diag. cbn. rewrite app_nil_r. apply written_ok.
Qed.
Lemma memcpy_ok b at_ l : (at_ + length l <= length b)%nat ->
  memcpy b at_ l = Ok (firstn at_ b ++ map Some l ++ skipn (at_ + length l) b).
Proof. intros H. unfold memcpy. destruct (Nat.ltb_spec (length b) (at_ + length l)); [lia|reflexivity]. Qed.
Lemma move_on b at_ pre cs k : at_holds b at_ (pre ++ cs) -> (k <= length cs)%nat ->
  exists b', memcpy b (at_ + k) pre = Ok b' /\ at_holds b' (at_ + k) (pre ++ skipn k cs).
Proof.
  intros (x & y & -> & <-) L. rewrite memcpy_ok.
  2: { rewrite !app_length, map_length, app_length. lia. }
  eexists. split; [reflexivity|]. eexists (firstn (length x + k) (x ++ map Some (pre ++ cs) ++ y)), y. split.
  - assert (SK : skipn (length x + k + length pre) (x ++ map Some (pre ++ cs) ++ y) = map Some (skipn k cs) ++ y).
    { rewrite <- (firstn_skipn k cs) at 1. rewrite !map_app, <- !app_assoc.
      rewrite (app_assoc x), (app_assoc (x ++ _)). rewrite skipn_app, skipn_all2.
      2: { rewrite !app_length, !map_length, firstn_length. lia. }
      rewrite !app_length, !map_length, firstn_length.
      replace (length x + k + length pre - (length x + length pre + Nat.min k (length cs)))%nat with O by lia. reflexivity. }
    rewrite SK, (map_app Some pre (skipn k cs)), <- (app_assoc (map Some pre)). reflexivity.
  - rewrite firstn_length, !app_length, map_length, app_length. lia.
Qed.

Lemma sub_loop_ok : forall fuel w b at_ value base done, clean w -> w <> [] -> (length w < fuel)%nat ->
  at_holds b at_ (prefix T ++ w) ->
  sub_loop fuel T str b at_ (length w + length (prefix T)) value (length done) (base ++ done)
  = Ok (final base done (pieces (length w) (has_of d) (prefix T) false w)).
Proof.
  induction fuel as [|fuel IH]; intros w b at_ value base done W NE F HBuf; [lia|].
  cbn [sub_loop]. assert (LW : (0 < length w)%nat) by (destruct w; cbn; [easy|lia]).
  destruct (Nat.ltb_spec 0 (length w + length (prefix T))); [|lia].
  replace (length w + length (prefix T))%nat with (length (prefix T ++ w)) by (rewrite app_length; lia).
  rewrite (bytes_at_ok b at_ _ HBuf). cbn [bind].
  destruct (search_pre (vocab T) d (prefix T) w value HT HD HP W) as (n & v & E & L & K & S).
  rewrite E. cbn [bind]. rewrite Nat2Z.id.
  rewrite (pieces_unfold _ _ _ _ w NE (le_n _)). cbv zeta. rewrite <- K.
  assert (BF : forall n, Forall byte (firstn n (prefix T ++ w))) by (intros; apply Forall_firstn, clean_byte, Forall_app; easy).
  rewrite app_length in *.
  destruct (Nat.eqb_spec n (length (prefix T) + length w)) as [EN|NN].
  - rewrite post_sh by (try apply BF; apply S; lia).
    replace (n - length (prefix T))%nat with (length w) by lia. destruct (length w) as [|k] eqn:EL; [lia|].
    rewrite skipn_all2 by lia. cbn [pieces length]. unfold final. cbn [map].
    rewrite firstn_all2, (firstn_all2 w) by (rewrite ?app_length; lia). now rewrite app_assoc.
  - destruct (Nat.leb_spec n (length (prefix T))) as [N0|N0].
    + rewrite pop_ok. cbn [bind]. rewrite unk_ok. replace (n - length (prefix T))%nat with O by lia. reflexivity.
    + rewrite post_sh by (try apply BF; apply S; lia). cbn [bind].
      destruct (move_on b at_ (prefix T) w (n - length (prefix T)) HBuf) as (b' & EB & HB'); [lia|].
      rewrite EB. cbn [bind]. set (k := (n - length (prefix T))%nat) in *.
      replace (length (prefix T) + length w - k)%nat with (length (skipn k w) + length (prefix T))%nat by (rewrite skipn_length; lia).
      rewrite <- app_assoc.
      replace (firstn n (prefix T ++ w)) with (prefix T ++ firstn k w) by (rewrite <- firstn_pre; f_equal; unfold k; lia).
      replace (Datatypes.S (length done)) with (length (done ++ [sh (prefix T ++ firstn k w)])) by (rewrite app_length; cbn; lia).
      rewrite IH; [|now apply Forall_skipn|intros X; apply (f_equal (@length Z)) in X; rewrite skipn_length in X; cbn in X; lia|rewrite skipn_length; lia|exact HB'].
      destruct k as [|k'] eqn:EK; [lia|]. destruct (pieces _ _ _ false (skipn (Datatypes.S k') w)); unfold final; [|reflexivity].
      cbn [map]. now rewrite <- app_assoc.
Qed.

(** One word *)
Definition bytes_expected (w : list Z) : list item :=
  if max_bytes T <? Z.of_nat (length w) then [item_of (unk T) uid]
  else match pieces (length w) (has_of d) (prefix T) true w with
       | None => [item_of (unk T) uid]
       | Some l => map sh l
       end.

Lemma small_holds (w : list Z) : Z.of_nat (length (prefix T)) + Z.of_nat (length w) < 2 ^ 31 ->
  (length w + length (prefix T) <= length (small_buffer (Z.of_nat (length w) + Z.of_nat (length (prefix T)))))%nat.
Proof.
  intros H. unfold small_buffer. rewrite repeat_length. rewrite TrProofs.wraps32_id by (unfold TrSpec.fits; lia).
  destruct (Z.ltb_spec 512 (Z.of_nat (length w) + Z.of_nat (length (prefix T)))); lia.
Qed.

Lemma with_prefix_ok w out : clean w -> (skip_empty T = true \/ w <> []) ->
  Z.of_nat (length (prefix T)) + Z.of_nat (length w) < 2 ^ 31 -> 0 <= max_bytes T \/ w <> [] ->
  tokenize_with_prefix T str w out = Ok (out ++ bytes_expected w).
Proof.
  intros W SE L MX. unfold tokenize_with_prefix. pose proof (small_holds w L) as SB.
  rewrite memcpy_ok by lia. cbn [bind Nat.add firstn app].
  destruct (Nat.eqb_spec (length w) 0) as [E0|N0].
  { destruct w; [|easy]. destruct SE as [->|SE]; [|easy]. cbn [andb]. unfold bytes_expected. cbn [length].
    destruct MX as [MX|MX]; [|easy]. destruct (Z.ltb_spec (max_bytes T) (Z.of_nat 0)); [lia|]. cbn. now rewrite app_nil_r. }
  rewrite andb_false_r. unfold bytes_expected. destruct (max_bytes T <? Z.of_nat (length w)); [apply unk_ok|].
  destruct (search_pre (vocab T) d [] w (-1) HT HD (Forall_nil _) W) as (n & v & E & LN & K & S).
  cbn [app length] in *. rewrite Nat.sub_0_r in K. rewrite E. cbn [bind]. rewrite Nat2Z.id.
  assert (NE : w <> []) by (intros ->; easy).
  rewrite (pieces_unfold _ _ _ _ w NE (le_n _)). cbv zeta. rewrite <- K.
  assert (BF : forall n, Forall byte (firstn n w)) by (intros; apply Forall_firstn, clean_byte, W).
  destruct (Nat.eqb_spec n (length w)) as [EN|NN].
  - rewrite post_sh by (try apply BF; apply S; lia). destruct n as [|n']; [lia|].
    rewrite skipn_all2 by lia. reflexivity.
  - destruct (Nat.eqb_spec n 0) as [->|NN0]; [apply unk_ok|].
    rewrite post_sh by (try apply BF; apply S; lia). cbn [bind].
    set (b := small_buffer _) in *.
    assert (H0 : at_holds (map Some (prefix T) ++ skipn (length (prefix T)) b) (length (prefix T)) []).
    { exists (map Some (prefix T)), (skipn (length (prefix T)) b). cbn. now rewrite map_length. }
    rewrite memcpy_ok by (rewrite app_length, map_length, !skipn_length; lia). cbn [bind].
    change 1%nat with (length [sh (firstn n w)]).
    rewrite sub_loop_ok.
    + destruct n as [|n']; [lia|]. cbn [app]. destruct (pieces _ _ _ false (skipn (Datatypes.S n') w)); reflexivity.
    + now apply Forall_skipn.
    + intros X. apply (f_equal (@length Z)) in X. rewrite skipn_length in X. cbn in X. lia.
    + rewrite skipn_length. lia.
    + eexists [], _. cbn [app length]. split; [|reflexivity]. rewrite map_app, <- app_assoc. f_equal.
      rewrite firstn_app, map_length, Nat.sub_diag, firstn_all2 by (rewrite map_length; lia). cbn. now rewrite app_nil_r.
Qed.

Lemma no_prefix_ok w out : prefix T = [] -> clean w -> (skip_empty T = true \/ w <> []) -> 0 <= max_bytes T \/ w <> [] ->
  tokenize_no_prefix T str w out = Ok (out ++ bytes_expected w).
Proof.
  intros EP W SE MX. unfold tokenize_no_prefix.
  destruct (Nat.eqb_spec (length w) 0) as [E0|N0].
  { destruct w; [|easy]. destruct SE as [->|SE]; [|easy]. cbn [andb]. unfold bytes_expected. cbn [length].
    destruct MX as [MX|MX]; [|easy]. destruct (Z.ltb_spec (max_bytes T) (Z.of_nat 0)); [lia|]. cbn. now rewrite app_nil_r. }
  rewrite andb_false_r. unfold bytes_expected. destruct (max_bytes T <? Z.of_nat (length w)); [apply unk_ok|].
  destruct (search_pre (vocab T) d [] w (-1) HT HD (Forall_nil _) W) as (n & v & E & LN & K & S).
  cbn [app length] in *. rewrite Nat.sub_0_r in K. rewrite E. cbn [bind]. rewrite Nat2Z.id.
  assert (NE : w <> []) by (intros ->; easy).
  rewrite (pieces_unfold _ _ _ _ w NE (le_n _)). cbv zeta. rewrite <- K.
  assert (BF : forall n, Forall byte (firstn n w)) by (intros; apply Forall_firstn, clean_byte, W).
  destruct (Nat.eqb_spec n (length w)) as [EN|NN].
  - rewrite post_sh by (try apply BF; apply S; lia). destruct n as [|n']; [lia|].
    rewrite skipn_all2 by lia. reflexivity.
  - destruct (Nat.eqb_spec n 0) as [->|NN0]; [apply unk_ok|].
    rewrite post_sh by (try apply BF; apply S; lia). cbn [bind].
    change 1%nat with (length [sh (firstn n w)]).
    rewrite plain_loop_ok; auto.
    + destruct n as [|n']; [lia|]. rewrite EP. cbn [app]. destruct (pieces _ _ _ false (skipn (Datatypes.S n') w)); reflexivity.
    + now apply Forall_skipn.
    + intros X. apply (f_equal (@length Z)) in X. rewrite skipn_length in X. cbn in X. lia.
    + rewrite skipn_length. lia.
Qed.
End Tokenizer.

(** ** The vocabulary *)
Definition before (a b : list Z * Z) : Prop := key_lt (fst a) (fst b) = true.
Lemma key_lt_trans : forall a b c, key_lt a b = true -> key_lt b c = true -> key_lt a c = true.
Proof.
  induction a as [|x a IH]; intros [|y b] [|z c]; cbn; try easy. intros H1 H2.
  apply orb_true_iff in H1, H2. rewrite !andb_true_iff, !Z.ltb_lt, !Z.eqb_eq in *. apply orb_true_iff.
  rewrite andb_true_iff, Z.ltb_lt, Z.eqb_eq.
  destruct H1 as [H1|[-> H1]], H2 as [H2|[-> H2]]; [left; lia|left; lia|left; lia|right; split; [easy|]]. now apply IH with b.
Qed.
Lemma emplace_elem m k v x : In x (emplace m k v) -> In x m \/ x = (k, v).
Proof.
  induction m as [|[k0 v0] m IH]; cbn [emplace]; [cbn; intuition|].
  destruct (key_lt k0 k); [cbn; intuition|]. destruct (key_lt k k0); cbn; intuition.
Qed.
Lemma before_none m k : (forall x, In x m -> key_lt k (fst x) = true) -> TrProofs.pairs m k = None.
Proof.
  induction m as [|[k0 v0] m IH]; intros H; [reflexivity|]. cbn [TrProofs.pairs]. unfold TrSpec.bind_key.
  destruct (list_eq_dec Z.eq_dec k k0) as [->|]; [|apply IH; intros; apply H; now right].
  specialize (H (k0, v0) (or_introl eq_refl)). cbn in H. now rewrite TrProofs.key_lt_irrefl in H.
Qed.
Lemma emplace_ok m k v : StronglySorted before m ->
  StronglySorted before (emplace m k v) /\
  forall k', TrProofs.pairs (emplace m k v) k' =
    match TrProofs.pairs m k' with Some x => Some x | None => if list_eq_dec Z.eq_dec k' k then Some v else None end.
Proof.
  induction m as [|[k0 v0] m IH]; intros S; cbn [emplace].
  - split; [repeat constructor|]. intros k'. cbn. unfold TrSpec.bind_key. now destruct (list_eq_dec Z.eq_dec k' k).
  - inversion S as [|? ? S' F]; subst. destruct (IH S') as (A & B). rewrite Forall_forall in F.
    destruct (key_lt k0 k) eqn:L1; [|destruct (key_lt k k0) eqn:L2].
    + split.
      * constructor; [exact A|]. apply Forall_forall. intros x I. apply emplace_elem in I as [I| ->]; [now apply F|exact L1].
      * intros k'. cbn [TrProofs.pairs]. unfold TrSpec.bind_key. destruct (list_eq_dec Z.eq_dec k' k0); [reflexivity|apply B].
    + split.
      * constructor; [exact S|]. constructor; [exact L2|]. apply Forall_forall. intros x I. apply F in I. unfold before in *. cbn in *. now apply key_lt_trans with k0.
      * intros k'. change (TrProofs.pairs ((k, v) :: (k0, v0) :: m) k') with (TrSpec.bind_key (TrProofs.pairs ((k0, v0) :: m)) k v k').
        unfold TrSpec.bind_key. destruct (list_eq_dec Z.eq_dec k' k) as [->|].
        -- rewrite before_none; [reflexivity|]. intros x [<-|I]; [exact L2|]. apply F in I. unfold before in I. cbn in *. now apply key_lt_trans with k0.
        -- now destruct (TrProofs.pairs ((k0, v0) :: m) k').
    + split; [exact S|]. intros k'. apply TrProofs.key_lt_total in L1; [|exact L2]. subst k0.
      cbn [TrProofs.pairs]. unfold TrSpec.bind_key. destruct (list_eq_dec Z.eq_dec k' k); [reflexivity|].
      now destruct (TrProofs.pairs m k').
Qed.
Lemma sorted_nodup m : StronglySorted before m -> NoDup (map fst m).
Proof.
  induction 1 as [|[k v] m S IH F]; [constructor|]. cbn. constructor; [|exact IH].
  intros I. apply in_map_iff in I as (x & E & I). rewrite Forall_forall in F. apply F in I. unfold before in I. cbn in I.
  rewrite E, TrProofs.key_lt_irrefl in I. easy.
Qed.

(** Building the trie of a sorted map *)
Lemma build_map m : StronglySorted before m ->
  (forall k v, In (k, v) m -> k <> [] /\ clean k /\ TrSpec.plain v) ->
  exists t, build initial m = Ok (Some t) /\ TrProofs.Holds t (TrProofs.pairs m).
Proof.
  intros S H. pose proof (sorted_nodup m S) as ND.
  destruct (TrProofs.build_ok m initial TrSpec.none TrProofs.initial_holds ND) as (t & d & E & HD & I).
  { intros k v IN. destruct (H k v IN) as (A & B & C). split; [exact A|]. split; [|easy].
    unfold clean in B. rewrite Forall_forall in B. exact B. }
  exists t. split; [exact E|]. apply (TrProofs.Holds_ext t d); [|exact HD].
  intros k. destruct (d k) as [v|] eqn:EK.
  - symmetry. apply TrProofs.pairs_in; [exact ND|]. apply I in EK as [X|X]; [easy|exact X].
  - destruct (TrProofs.pairs m k) as [v|] eqn:EP; [|reflexivity]. apply TrProofs.pairs_in in EP; [|exact ND].
    assert (X : d k = Some v) by (apply I; now right). congruence.
Qed.

Lemma read_ok : forall lines m n, StronglySorted before m -> 0 <= n -> n + Z.of_nat (length lines) < 2 ^ 31 ->
  StronglySorted before (read_vocab m lines n) /\
  (forall k v, In (k, v) (read_vocab m lines n) -> In (k, v) m \/ (In k lines /\ k <> [] /\ 0 <= v < 2 ^ 31)) /\
  forall k, TrProofs.pairs (read_vocab m lines n) k =
    match TrProofs.pairs m k with Some v => Some v | None => id_from lines n k end.
Proof.
  induction lines as [|l lines IH]; intros m n S N L.
  - cbn. split; [exact S|]. split; [now left|]. intros k. now destruct (TrProofs.pairs m k).
  - cbn [length] in L. destruct l as [|c l].
    + cbn [read_vocab id_from]. destruct (IH m n S N ltac:(lia)) as (A & B & C). split; [exact A|]. split; [|exact C].
      intros k v I. apply B in I as [I|(I & X)]; [now left|]. right. split; [now right|exact X].
    + cbn [read_vocab id_from]. rewrite TrProofs.wraps32_id by (unfold TrSpec.fits; lia).
      destruct (emplace_ok m (c :: l) n S) as (S1 & P1).
      destruct (IH (emplace m (c :: l) n) (n + 1) S1 ltac:(lia) ltac:(lia)) as (A & B & C). split; [exact A|]. split.
      * intros k v I. apply B in I as [I|(I & X)].
        -- apply emplace_elem in I as [I|I]; [now left|]. injection I as -> ->. right. split; [now left|]. split; [easy|lia].
        -- right. split; [now right|exact X].
      * intros k. rewrite C, P1. destruct (TrProofs.pairs m k); [reflexivity|].
        destruct (list_eq_dec Z.eq_dec k (c :: l)) as [->|NE]; destruct (list_eq_dec Z.eq_dec (c :: l) _) as [E|NE']; try congruence; reflexivity.
Qed.

Lemma vocab_ok lines : Forall (Forall (fun c => 0 < c < 256)) lines -> Z.of_nat (length lines) < 2 ^ 31 ->
  exists t, build initial (read_vocab [] lines 0) = Ok (Some t) /\ TrProofs.Holds t (id_from lines 0).
Proof.
  intros C L. destruct (read_ok lines [] 0 (SSorted_nil _) ltac:(lia) ltac:(lia)) as (S & I & P).
  destruct (build_map _ S) as (t & E & H).
  { intros k v IN. destruct (I k v IN) as [[]|(IL & NE & V)]. split; [exact NE|].
    rewrite Forall_forall in C. split; [now apply C|]. unfold TrSpec.plain, TrSpec.fits. lia. }
  exists t. split; [exact E|]. apply (TrProofs.Holds_ext _ _ _ P). exact H.
Qed.

Lemma id_from_in lines : forall n k, id_from lines n k <> None -> In k lines /\ k <> [].
Proof.
  induction lines as [|[|c l] lines IH]; intros n k; cbn [id_from]; [easy| |].
  - intros H. apply IH in H as [I NE]. split; [now right|exact NE].
  - destruct (list_eq_dec Z.eq_dec (c :: l) k) as [<-|]; [split; [now left|easy]|].
    intros H. apply IH in H as [I NE]. split; [now right|exact NE].
Qed.
Lemma id_from_range lines : forall n k v, id_from lines n k = Some v -> n <= v < n + Z.of_nat (length lines).
Proof.
  induction lines as [|[|c l] lines IH]; intros n k v; cbn [id_from length]; [easy| |].
  - intros H. apply IH in H. lia.
  - destruct (list_eq_dec Z.eq_dec (c :: l) k); [intros E; injection E as <-; lia|]. intros H. apply IH in H. lia.
Qed.

(** ** Characters *)
Lemma enc_firstn n cs : exists r, enc cs = enc (firstn n cs) ++ r.
Proof. exists (enc (skipn n cs)). unfold enc. rewrite <- TrProofs.enc_app, firstn_skipn. reflexivity. Qed.
Lemma enc_length_mono n m cs : (n <= m)%nat -> (length (enc (firstn n cs)) <= length (enc (firstn m cs)))%nat.
Proof.
  intros L. replace n with (Nat.min n m) by lia. rewrite <- firstn_firstn.
  destruct (enc_firstn n (firstn m cs)) as (r & E). rewrite E, app_length. lia.
Qed.
Lemma enc_take n cs : firstn (length (enc (firstn n cs))) (enc cs) = enc (firstn n cs).
Proof.
  destruct (enc_firstn n cs) as (r & E). remember (enc (firstn n cs)) as a eqn:EA. rewrite E.
  rewrite firstn_app, Nat.sub_diag, firstn_all. cbn. apply app_nil_r.
Qed.
Lemma enc_drop n cs : skipn (length (enc (firstn n cs))) (enc cs) = enc (skipn n cs).
Proof.
  assert (E : enc cs = enc (firstn n cs) ++ enc (skipn n cs)).
  { unfold enc. now rewrite <- TrProofs.enc_app, firstn_skipn. }
  rewrite E, skipn_app, Nat.sub_diag, skipn_all. reflexivity.
Qed.
Lemma enc_nonempty cs : cs <> [] -> enc cs <> [].
Proof. destruct cs as [|c cs]; [easy|]. intros _ E. cbn in E. apply app_eq_nil in E as [E _]. now apply TrProofs.enc1_ne in E. Qed.
Lemma enc_length cs : (length cs <= length (enc cs))%nat.
Proof.
  induction cs as [|c cs IH]; [cbn; lia|]. change (enc (c :: cs)) with (TrSpec.enc1 c ++ enc cs). rewrite app_length. cbn [length].
  assert (length (TrSpec.enc1 c) <> 0)%nat by (intros E; apply length_zero_iff_nil in E; now apply TrProofs.enc1_ne in E). lia.
Qed.
Lemma firstn_nonempty {A} n (cs : list A) : (0 < n <= length cs)%nat -> firstn n cs <> [].
Proof. intros L E. apply (f_equal (@length A)) in E. rewrite firstn_length in E. cbn in E. lia. Qed.

Section Chars.
Variable d : TrSpec.dict.
Hypothesis HT : forall k, d k <> None -> is_text k.

Lemma longest_enc q cs : Forall point q -> Forall point cs ->
  longest_known (has_of d) (enc q) (enc cs) (length (enc cs))
  = length (enc (firstn (longest_known (fun k => has_of d (enc k)) q cs (length cs)) cs)).
Proof.
  intros Q C. pose proof (longest_spec (fun k => has_of d (enc k)) q cs (length cs)) as (L & K & M).
  set (n := longest_known _ _ _ _) in *. apply longest_char.
  - pose proof (enc_length_mono n (length cs) cs L) as X. now rewrite firstn_all in X.
  - destruct K as [K|K]; [left; rewrite K; reflexivity|right].
    rewrite enc_take. unfold enc in *. now rewrite <- TrProofs.enc_app.
  - intros m Lm. destruct (has_of d (enc q ++ firstn m (enc cs))) eqn:E; [exfalso|reflexivity].
    unfold has_of in E. destruct (d (enc q ++ firstn m (enc cs))) as [v|] eqn:ED; [|easy].
    destruct (HT (enc q ++ firstn m (enc cs))) as (k & PK & EK); [congruence|].
    destruct (TrProofs.enc_prefix q k (firstn m (enc cs)) Q PK (eq_sym EK)) as (w & -> & EW).
    apply Forall_app in PK as [_ PW].
    destruct (TrProofs.enc_prefix w cs (skipn m (enc cs)) PW C) as (w' & EC & _).
    { fold enc. unfold enc in *. rewrite <- EW. symmetry. apply firstn_skipn. }
    assert (FW : firstn (length w) cs = w) by (rewrite EC, firstn_app, Nat.sub_diag, firstn_all; cbn; apply app_nil_r).
    assert (LM : m = length (enc (firstn (length w) cs))).
    { rewrite FW. unfold enc in *. rewrite <- EW, firstn_length. lia. }
    assert (n < length w)%nat.
    { destruct (Nat.le_gt_cases (length w) n) as [G|G]; [|exact G]. apply enc_length_mono with (cs := cs) in G. lia. }
    assert (X : has_of d (enc (q ++ firstn (length w) cs)) = false).
    { apply M. rewrite EC, app_length. lia. }
    rewrite FW in X. unfold has_of, enc in *. rewrite TrProofs.enc_app, <- EW, ED in X. easy.
Qed.

Lemma pieces_enc : forall f g pre first cs, Forall point pre -> Forall point cs -> (length cs <= f)%nat -> (length (enc cs) <= g)%nat ->
  pieces g (has_of d) (enc pre) first (enc cs) = option_map (map enc) (pieces f (fun k => has_of d (enc k)) pre first cs).
Proof.
  induction f as [|f IH]; intros g pre first cs P C F G.
  { destruct cs; [|cbn in F; lia]. destruct g; reflexivity. }
  destruct cs as [|c cs]; [destruct g; reflexivity|]. set (w := c :: cs) in *.
  assert (NE : w <> []) by easy.
  rewrite (pieces_unfold g _ _ _ (enc w) (enc_nonempty w NE) G).
  rewrite (pieces_unfold (S f) _ _ _ w NE F). cbv zeta.
  assert (EQ : (if first then [] else enc pre) = enc (if first then [] else pre)) by now destruct first.
  rewrite EQ. set (q := if first then [] else pre).
  assert (PQ : Forall point q) by (unfold q; destruct first; [constructor|exact P]).
  rewrite longest_enc by easy.
  pose proof (longest_spec (fun k => has_of d (enc k)) q w (length w)) as (L & _ & _).
  destruct (longest_known _ q w (length w)) as [|n] eqn:EN; [reflexivity|].
  assert (NF : firstn (S n) w <> []) by (apply firstn_nonempty; lia).
  apply enc_nonempty in NF. destruct (length (enc (firstn (S n) w))) as [|m] eqn:EM; [apply length_zero_iff_nil in EM; easy|].
  rewrite <- EM. rewrite enc_drop, enc_take.
  assert (SH : (length (skipn (S n) w) < length w)%nat) by (apply skipn_shorter; lia).
  rewrite (IH (length (enc (skipn (S n) w))) pre false (skipn (S n) w)); [|easy|now apply Forall_skipn|cbn [length] in *; lia|lia].
  assert (PF : pieces f (fun k => has_of d (enc k)) pre false (skipn (S n) w) = pieces (length (skipn (S n) w)) (fun k => has_of d (enc k)) pre false (skipn (S n) w)).
  { destruct (skipn (S n) w) as [|c' r] eqn:ER; [destruct f; reflexivity|].
    rewrite (pieces_unfold f) by (try easy; cbn [length] in *; lia). now rewrite (pieces_unfold (length (c' :: r))) by (try easy; lia). }
  rewrite <- PF. destruct (pieces f _ pre false (skipn (S n) w)); [|reflexivity]. cbn [option_map map].
  unfold enc. now rewrite TrProofs.enc_app.
Qed.
End Chars.

(** ** The tokenizer *)
Lemma enc_clean cs : Forall point cs -> ~ In 0 cs -> clean (enc cs).
Proof.
  intros P Z. apply Forall_forall. intros b I. pose proof (TrProofs.enc_bytes cs P) as B. rewrite Forall_forall in B.
  specialize (B b I). assert (b <> 0) by (intros ->; now apply Z, TrProofs.enc_zero). lia.
Qed.
Lemma coded_clean x : good_text x -> clean (coded x) /\ bytes_of x = Ok (coded x).
Proof.
  intros [P Z]. destruct x as [w|cs]; cbn in *.
  - split; [|reflexivity]. apply Forall_forall. intros b I. rewrite Forall_forall in P. specialize (P b I).
    assert (b <> 0) by (intros ->; easy). lia.
  - split; [now apply enc_clean|]. unfold bytes_of. rewrite TrProofs.encode_enc by easy. reflexivity.
Qed.
Lemma decode_enc cs : Forall point cs -> utf8_decode (enc cs) = Ok cs.
Proof.
  intros P. pose proof (Utf8Props.C01_utf8_round_trip cs) as R. rewrite TrProofs.encode_enc in R by easy. apply R.
  eapply Forall_impl; [|exact P]. unfold point, code_point. intros; lia.
Qed.
Lemma pieces_points has pre : Forall point pre -> forall f first cs l, Forall point cs -> pieces f has pre first cs = Some l -> Forall (Forall point) l.
Proof.
  intros P. induction f as [|f IH]; intros first [|c cs] l C; cbn [pieces]; try (intros E; injection E as <-; constructor); try easy.
  cbv zeta. destruct (longest_known _ _ _ _) as [|n]; [easy|]. destruct (pieces f has pre false _) as [l'|] eqn:E'; [|easy].
  intros E; injection E as <-. constructor; [|eapply IH; [|exact E']; now apply Forall_skipn].
  apply Forall_app. split; [|exact (Forall_firstn point (S n) (c :: cs) C)]. destruct first; cbv iota; [apply Forall_nil|exact P].
Qed.

Section Word.
Variables (lines : list (list Z)) (T : tokenizer) (u p : list Z) (uid max : Z).
Hypotheses (GL : good_lines lines) (HT : TrProofs.Holds (vocab T) (id_from lines 0))
  (UP : Forall point u) (UZ : ~ In 0 u) (PP : Forall point p) (PZ : ~ In 0 p)
  (HP : prefix T = enc p) (HUK : unk T = enc u) (HU : unk_id T = Some uid) (HI : id_from lines 0 (enc u) = Some uid)
  (HM : max_bytes T = max) (M0 : 0 <= max).

Lemma word_ok x out : good_word lines (skip_empty T) p x ->
  tokenize_word T x out = Ok (out ++ expected lines (lookup_id T) u p max x).
Proof.
  intros (GT & SE & LN & TX). destruct (coded_clean x GT) as (CL & BO). unfold tokenize_word. rewrite BO. cbn [bind].
  set (str := match x with Str _ => true | Bytes _ => false end).
  assert (DP : deep (id_from lines 0)) by (intros w; exact (proj2 (proj2 GL) w)).
  assert (CP : clean (prefix T)) by (rewrite HP; now apply enc_clean).
  assert (BU : Forall byte (unk T)) by (rewrite HUK; now apply clean_byte, enc_clean).
  assert (NEc : skip_empty T = true \/ coded x <> []).
  { destruct SE as [E|E]; [now left|right]. destruct x as [w|cs]; [exact E|]. now apply enc_nonempty. }
  transitivity (Ok (out ++ bytes_expected T (id_from lines 0) str uid (coded x))).
  { destruct (prefix T) as [|c0 p0] eqn:EP.
    - apply no_prefix_ok; auto; try (rewrite EP; exact CP); try (left; lia).
    - rewrite <- EP in CP. apply with_prefix_ok; auto; try (left; lia).
      rewrite EP, HP. exact LN. }
  do 2 f_equal. unfold bytes_expected, expected. rewrite HM. fold coded.
  assert (EU : item_of T str (unk T) uid = show lines (lookup_id T) (same_kind x u)).
  { unfold item_of, show, id_of. rewrite HUK. destruct (lookup_id T).
    - destruct x; cbn [same_kind]; unfold coded; cbn [TrSpec.coded]; fold (enc u); now rewrite HI.
    - destruct x as [w|cs]; cbn [str same_kind]; [reflexivity|]. unfold decoded. now rewrite decode_enc. }
  rewrite EU. destruct (max <? Z.of_nat (length (coded x))); [reflexivity|].
  destruct x as [w|cs]; cbn [remake chars same_kind] in *.
  - rewrite HP. change (coded (Bytes w)) with w. cbn [str].
    change (fun cs : list Z => known lines (Bytes cs)) with (has_of (id_from lines 0)).
    destruct (pieces _ _ _ _ w); [|reflexivity]. apply map_ext. intros b. unfold sh, item_of, show, id_of. reflexivity.
  - rewrite HP. change (coded (Str cs)) with (enc cs). destruct GT as [PC _]. cbn [proper TrSpec.proper] in PC.
    change (fun cs : list Z => known lines (Str cs)) with (fun k => has_of (id_from lines 0) (enc k)).
    rewrite (pieces_enc (id_from lines 0)) with (f := length cs); try easy.
    2: { intros k K. apply id_from_in in K as [I _]. rewrite Forall_forall in TX. now apply TX. }
    destruct (pieces (length cs) _ p true cs) as [l|] eqn:EL; [|reflexivity]. cbn [option_map]. rewrite map_map. apply map_ext_in. intros k I.
    assert (PK : Forall point k).
    { pose proof (pieces_points _ p PP (length cs) true cs l PC EL) as F. rewrite Forall_forall in F. now apply F. }
    unfold sh, item_of, show, id_of. cbn [str]. unfold decoded. rewrite decode_enc by easy. reflexivity.
Qed.

Lemma words_ok : forall words out, Forall (good_word lines (skip_empty T) p) words ->
  tokenize T (map Text words) out = Ok (out ++ flat_map (expected lines (lookup_id T) u p max) words).
Proof.
  induction words as [|x words IH]; intros out F; cbn [map tokenize flat_map]; [now rewrite app_nil_r|].
  pose proof (Forall_inv F). pose proof (Forall_inv_tail F). rewrite word_ok by easy. cbn [bind]. rewrite IH by easy. now rewrite app_assoc.
Qed.
Lemma words_meta : forall words out lens, Forall (good_word lines (skip_empty T) p) words ->
  tokenize_with_meta T (map Text words) out lens
  = Ok (out ++ flat_map (expected lines (lookup_id T) u p max) words,
        lens ++ map (fun x => Z.of_nat (length (expected lines (lookup_id T) u p max x))) words).
Proof.
  induction words as [|x words IH]; intros out lens F; cbn [map tokenize_with_meta flat_map]; [now rewrite !app_nil_r|].
  pose proof (Forall_inv F). pose proof (Forall_inv_tail F). rewrite word_ok by easy. cbn [bind]. rewrite IH by easy. rewrite <- !app_assoc. cbn [app].
  do 4 f_equal. rewrite app_length. lia.
Qed.
End Word.

Definition nested (lines : list (list Z)) (w : list Z) : nat :=
  length (filter (fun n => match id_from lines 0 (firstn n w) with Some _ => true | None => false end) (seq 1 (length w))).
Lemma make_ok lines lookup ux px u p skip max : Forall (Forall (fun c => 0 < c < 256)) lines -> Z.of_nat (length lines) < 2 ^ 31 ->
  (nested lines (enc u) <= 64)%nat ->
  Forall point u -> ~ In 0 u -> Forall point p -> ~ In 0 p ->
  (ux = Str u \/ ux = Bytes (enc u)) -> (px = Str p \/ px = Bytes (enc p)) ->
  known lines (Str u) = true -> 0 <= max < 2 ^ 31 ->
  exists T uid, make_tokenizer lines lookup (Text ux) (Text px) skip max = Ok (Some T) /\
    TrProofs.Holds (vocab T) (id_from lines 0) /\ prefix T = enc p /\ unk T = enc u /\ unk_id T = Some uid /\
    id_from lines 0 (enc u) = Some uid /\ max_bytes T = max /\ lookup_id T = lookup /\ skip_empty T = skip.
Proof.
  intros CL LN NS PU ZU PP ZP EU EP K M. destruct (vocab_ok lines CL LN) as (t & EB & H).
  assert (B1 : bytes_of px = Ok (enc p)) by (destruct EP as [-> | ->]; [now apply TrProofs.encode_enc|reflexivity]).
  assert (B2 : bytes_of ux = Ok (enc u)) by (destruct EU as [-> | ->]; [now apply TrProofs.encode_enc|reflexivity]).
  unfold make_tokenizer. cbn [get_string]. rewrite B1, B2. cbn [bind]. rewrite EB. cbn [bind].
  destruct (search_near t (id_from lines 0) (enc u) 0 H NS (enc_clean u PU ZU)) as (n & v & E & L & V & G).
  rewrite E. cbn [bind].
  unfold known, id_of in K. change (coded (Str u)) with (enc u) in K.
  destruct (id_from lines 0 (enc u)) as [uid|] eqn:EI; [|easy].
  assert (n = length (enc u)).
  { destruct (Nat.eq_dec n (length (enc u))) as [|NE]; [easy|]. specialize (G (length (enc u)) ltac:(lia)). rewrite firstn_all in G. congruence. }
  assert (NE : enc u <> []) by (apply (id_from_in lines 0); congruence).
  assert (LU : (0 < length (enc u))%nat) by (destruct (enc u); [easy|cbn; lia]).
  subst n. destruct V as [[? _]|[_ V]]; [lia|]. rewrite firstn_all in V.
  destruct (Z.eqb_spec (Z.of_nat (length (enc u))) (Z.of_nat (length (enc u)))); [|lia].
  destruct (Z.eqb_spec (Z.of_nat (length (enc u))) 0); [lia|].
  eexists _, uid. split; [reflexivity|]. cbn. rewrite TrProofs.wraps32_id by (unfold TrSpec.fits; lia).
  split; [exact H|]. repeat split; try easy. congruence.
Qed.

(** ** The emoji filter *)
Lemma append_ok : forall codes m, StronglySorted before m -> (forall k v, In (k, v) m -> v = 0 /\ k <> [] /\ clean k) ->
  Forall (fun k => good_text k /\ chars k <> []) codes ->
  exists m', append_codes m (map Text codes) = Ok m' /\ StronglySorted before m' /\
    (forall k v, In (k, v) m' -> v = 0 /\ k <> [] /\ clean k) /\
    forall k, TrProofs.pairs m' k = match TrProofs.pairs m k with Some v => Some v | None =>
      if existsb (fun x => if list_eq_dec Z.eq_dec (coded x) k then true else false) codes then Some 0 else None end.
Proof.
  induction codes as [|x codes IH]; intros m S I F; cbn [map append_codes existsb].
  - exists m. split; [reflexivity|]. split; [exact S|]. split; [exact I|]. intros k. now destruct (TrProofs.pairs m k).
  - inversion F as [|? ? [GT NE] F']; subst. destruct (coded_clean x GT) as (CL & BO). cbn [get_string]. rewrite BO. cbn [bind].
    destruct (emplace_ok m (coded x) 0 S) as (S1 & P1).
    destruct (IH (emplace m (coded x) 0) S1) as (m' & E & S2 & I2 & P2); [|exact F'|].
    { intros k v IN. apply emplace_elem in IN as [IN|IN]; [now apply I|]. injection IN as -> ->. split; [reflexivity|]. split; [|exact CL].
      destruct x as [w|cs]; [exact NE|now apply enc_nonempty]. }
    exists m'. split; [exact E|]. split; [exact S2|]. split; [exact I2|]. intros k. rewrite P2, P1.
    destruct (TrProofs.pairs m k); [reflexivity|]. destruct (list_eq_dec Z.eq_dec k (coded x)) as [->|N1];
      destruct (list_eq_dec Z.eq_dec (coded x) _) as [E2|N2]; try congruence; reflexivity.
Qed.

Lemma filter_made codes : good_codes codes ->
  exists t d, make_filter (map Text codes) = Ok (Some t) /\ TrProofs.Holds t d /\ deep d /\
    (forall k, has_of d k = among codes (Bytes k)) /\ d [] = None.
Proof.
  intros [F SH]. destruct (append_ok codes [] (SSorted_nil _) ltac:(easy) F) as (m & E & S & I & P).
  destruct (build_map m S) as (t & EB & H).
  { intros k v IN. destruct (I k v IN) as (-> & NE & CL). split; [exact NE|]. split; [exact CL|]. unfold TrSpec.plain, TrSpec.fits. lia. }
  assert (HK : forall k, has_of (TrProofs.pairs m) k = among codes (Bytes k)).
  { intros k. unfold has_of. rewrite P. cbn [TrProofs.pairs]. unfold TrSpec.none. unfold among. change (coded (Bytes k)) with k. now destruct (existsb _ codes). }
  exists t, (TrProofs.pairs m). split; [unfold make_filter; rewrite E; exact EB|]. split; [exact H|]. split; [|split; [exact HK|]].
  - intros w. specialize (SH w). erewrite filter_ext; [exact SH|]. intros n. cbn beta. rewrite <- HK. reflexivity.
  - destruct (TrProofs.pairs m []) as [v|] eqn:E0; [|reflexivity]. apply TrProofs.pairs_in in E0; [|now apply sorted_nodup]. apply I in E0 as (_ & NE & _). easy.
Qed.

(** Any text can be cut, in one way. *)
Lemma cuts_exists has : forall cs, has [] = false -> exists l, cuts has cs l.
Proof.
  intros cs H0. remember (length cs) as n eqn:EN. revert cs EN. induction n as [n IH] using lt_wf_ind. intros [|c cs] ->; [eexists; constructor|].
  pose proof (longest_spec has [] (c :: cs) (length (c :: cs))) as (L & K & M). cbn [app] in *.
  destruct (longest_known has [] (c :: cs) (length (c :: cs))) as [|n].
  - destruct (IH (length cs)) with (cs := cs) as (l & Hl); [cbn; lia|reflexivity|]. eexists. apply cuts_item; [|exact Hl].
    intros m Lm. apply M. cbn [length]. lia.
  - destruct (IH (length (skipn (S n) (c :: cs)))) with (cs := skipn (S n) (c :: cs)) as (l & Hl); [apply skipn_shorter; lia|reflexivity|].
    exists ((true, firstn (S n) (c :: cs)) :: l). apply cuts_code; [lia| |exact M|exact Hl]. destruct K as [K|K]; [easy|exact K].
Qed.
Lemma cuts_unique has : forall cs l, cuts has cs l -> forall l', cuts has cs l' -> l = l'.
Proof.
  induction 1 as [|n cs l L K M C IH|c cs l N C IH]; intros l' C'.
  - inversion C' as [|? ? ? L' |]; subst; [reflexivity|]. cbn in L'. lia.
  - inversion C' as [|n' cs' l0 L' K' M' C0|c' cs' l0 N' C0]; subst.
    + cbn in L. lia.
    + assert (n = n').
      { destruct (lt_eq_lt_dec n n') as [[X|X]|X]; [|exact X|].
        - rewrite M in K' by lia. easy.
        - rewrite M' in K by lia. easy. }
      subst n'. f_equal. now apply IH.
    + rewrite N' in K by (cbn [length] in L; lia). easy.
  - inversion C' as [|n' cs' l0 L' K' M' C0|c' cs' l0 N' C0]; subst.
    + rewrite N in K' by (cbn [length] in L'; lia). easy.
    + f_equal. now apply IH.
Qed.
Lemma cuts_all has cs l : cuts has cs l -> flat_map snd l = cs.
Proof.
  induction 1 as [|n cs l L K M C IH|c cs l N C IH]; cbn; [reflexivity| |].
  - rewrite IH. apply firstn_skipn.
  - now rewrite IH.
Qed.

(** Items of the text are encoded by [e]: as themselves, or in UTF-8. *)
Section Filter.
Variables (t : da) (d : TrSpec.dict) (e : Z -> list Z) (ok : Z -> Prop).
Definition lay (cs : list Z) : list Z := flat_map e cs.
Definition on (k : list Z) : bool := has_of d (lay k).
Hypotheses
  (H1 : forall cs, Forall ok cs -> exists v, search t (lay cs) 0 = Ok (Z.of_nat (length (lay (firstn (longest_known on [] cs (length cs)) cs))), v))
  (H2 : forall c cs a b, ok c -> Forall ok cs -> e c = a ++ b -> a <> [] -> b <> [] -> exists v, search t (b ++ lay cs) 0 = Ok (0, v))
  (H3 : forall c, e c <> []).

Lemma lay_app a b : lay (a ++ b) = lay a ++ lay b. Proof. apply flat_map_app. Qed.
Lemma lay_take n cs : lay cs = lay (firstn n cs) ++ lay (skipn n cs). Proof. now rewrite <- lay_app, firstn_skipn. Qed.
Lemma lay_ne cs : cs <> [] -> lay cs <> [].
Proof. destruct cs as [|c cs]; [easy|]. intros _ E. cbn in E. apply app_eq_nil in E as [E _]. now apply H3 in E. Qed.

Lemma loops_tail keep repl c cs : ok c -> Forall ok cs -> forall b a fuel r last, e c = a ++ b -> a <> [] ->
  (length b <= fuel)%nat ->
  filter_loop fuel t (b ++ lay cs) r = filter_loop (fuel - length b) t (lay cs) (r ++ b) /\
  (last = false -> replace_loop fuel t (b ++ lay cs) repl keep last r = replace_loop (fuel - length b) t (lay cs) repl keep false (r ++ b)).
Proof.
  intros OK OKS. induction b as [|x b IH]; intros a fuel r last E NA LF.
  - cbn [app length]. rewrite Nat.sub_0_r, app_nil_r. split; [reflexivity|]. now intros ->.
  - destruct fuel as [|fuel]; [cbn in LF; lia|]. destruct (H2 c cs a (x :: b) OK OKS E NA ltac:(easy)) as (v & ES).
    cbn [app length] in *. cbn [filter_loop replace_loop]. rewrite ES. cbn [bind Z.leb Z.compare].
    destruct (IH (a ++ [x]) fuel (r ++ [x]) false) as [A B]; [now rewrite <- app_assoc|destruct a; easy|lia|].
    replace (r ++ x :: b) with ((r ++ [x]) ++ b) by now rewrite <- app_assoc. cbn [Nat.sub]. split; [exact A|]. intros _. now apply B.
Qed.

Lemma lay_len n cs : (1 <= n <= length cs)%nat -> (0 < length (lay (firstn n cs)))%nat.
Proof.
  intros L. destruct (lay (firstn n cs)) eqn:E; [|cbn; lia]. exfalso. revert E. apply lay_ne. apply firstn_nonempty. lia.
Qed.

Lemma loops_ok keep repl : forall cs l, cuts on cs l -> Forall ok cs -> forall fuel r last, (length (lay cs) < fuel)%nat ->
  filter_loop fuel t (lay cs) r = Ok (r ++ lay (without l)) /\
  replace_loop fuel t (lay cs) (lay repl) keep last r = Ok (r ++ lay (with_repl repl keep last l)).
Proof.
  induction 1 as [|n cs l L K M C IH|c cs l N C IH]; intros OK fuel r last LF.
  - destruct fuel; [cbn in LF; lia|]. cbn. now rewrite app_nil_r.
  - pose proof (lay_len n cs L) as LL. destruct fuel as [|fuel]; [lia|].
    destruct (H1 cs OK) as (v & ES).
    assert (EN : longest_known on [] cs (length cs) = n) by (apply longest_char; [lia|right; exact K|exact M]). rewrite EN in ES.
    assert (LT : (length (lay cs) = length (lay (firstn n cs)) + length (lay (skipn n cs)))%nat) by (rewrite (lay_take n cs) at 1; apply app_length).
    assert (SK : skipn (length (lay (firstn n cs))) (lay cs) = lay (skipn n cs)).
    { rewrite (lay_take n cs) at 1. rewrite skipn_app, Nat.sub_diag, skipn_all. reflexivity. }
    destruct (lay cs) as [|x s] eqn:EL; [cbn in LT; lia|]. cbn [filter_loop replace_loop]. rewrite ES. cbn [bind].
    destruct (Z.leb_spec (Z.of_nat (length (lay (firstn n cs)))) 0); [lia|]. rewrite Nat2Z.id, SK.
    assert (OKS : Forall ok (skipn n cs)) by now apply Forall_skipn.
    destruct (IH OKS fuel r true ltac:(lia)) as [A _]. 
    destruct (IH OKS fuel (if keep || negb last then r ++ lay repl else r) true ltac:(lia)) as [_ B].
    split; [exact A|]. rewrite B. f_equal. cbn [with_repl]. rewrite lay_app. destruct (keep || negb last); [now rewrite app_assoc|reflexivity].
  - inversion OK as [|? ? OC OKS]; subst. destruct (H1 (c :: cs) OK) as (v & ES).
    assert (EN : longest_known on [] (c :: cs) (length (c :: cs)) = O) by (apply longest_char; [lia|now left|intros m Lm; apply N; cbn [length] in Lm; lia]).
    rewrite EN in ES. cbn [firstn lay flat_map length Z.of_nat] in ES. change (flat_map e cs) with (lay cs) in ES.
    change (lay (c :: cs)) with (e c ++ lay cs) in *. rewrite app_length in LF.
    destruct (e c) as [|x b] eqn:EC; [now apply H3 in EC|]. cbn [app length] in *. destruct fuel as [|fuel]; [lia|].
    cbn [filter_loop replace_loop]. rewrite ES. cbn [bind Z.leb Z.compare].
    destruct (loops_tail keep (lay repl) c cs OC OKS b [x] fuel (r ++ [x]) false EC ltac:(easy) ltac:(lia)) as [A B].
    rewrite A, (B eq_refl). destruct (IH OKS (fuel - length b)%nat ((r ++ [x]) ++ b) false ltac:(lia)) as [A' B']. rewrite A', B'.
    assert (EE : forall z, ((r ++ [x]) ++ b) ++ z = r ++ e c ++ z) by (intros; rewrite EC, <- !app_assoc; reflexivity).
    split; f_equal; rewrite EE; reflexivity.
Qed.
End Filter.

Lemma lay_self cs : lay (fun c => [c]) cs = cs.
Proof. induction cs as [|c cs IH]; [reflexivity|]. unfold lay in *. cbn. now rewrite IH. Qed.
Lemma longest_ext has has' q cs : (forall k, has k = has' k) -> forall n, longest_known has q cs n = longest_known has' q cs n.
Proof. intros E. induction n as [|n IH]; [reflexivity|]. cbn [longest_known]. now rewrite E, IH. Qed.
Lemma cuts_ext has has' : (forall k, has k = has' k) -> forall cs l, cuts has cs l -> cuts has' cs l.
Proof.
  intros E. induction 1; [constructor| |]; constructor; auto; try (intros; rewrite <- E; auto).
Qed.
Lemma bytes_search t d : TrProofs.Holds t d -> deep d -> forall w, clean w ->
  exists v, search t w 0 = Ok (Z.of_nat (longest_known (has_of d) [] w (length w)), v).
Proof.
  intros H D w W. destruct (search_ok t d w 0 H D W) as (n & v & E & L & V & G). exists v. rewrite E. do 3 f_equal. symmetry. apply longest_char.
  - exact L.
  - destruct V as [[-> _]|[_ V]]; [now left|right]. unfold has_of. cbn [app]. now rewrite V.
  - intros m Lm. unfold has_of. cbn [app]. now rewrite G.
Qed.
Lemma enc1_shape c : point c -> exists h r, TrSpec.enc1 c = h :: r /\ (h < 128 \/ 192 <= h) /\ Forall (fun b => 128 <= b < 192) r.
Proof.
  intros P. unfold point in P. unfold TrSpec.enc1.
  destruct (Z.ltb_spec c 128); [|destruct (Z.ltb_spec c 2048); [|destruct (Z.ltb_spec c 65536)]]; eexists _, _; (split; [reflexivity|]); (split; [|repeat constructor]);
    Z.div_mod_to_equations; lia.
Qed.

Section Text.
Variables (t : da) (codes : list text) (d : TrSpec.dict).
Hypotheses (H : TrProofs.Holds t d) (D : deep d) (HK : forall k, has_of d k = among codes (Bytes k)).

Lemma among_kind x cs : among codes (remake x cs) = has_of d (coded (remake x cs)).
Proof. rewrite HK. destruct x; reflexivity. Qed.

Lemma texts_of s : codes_for codes (Str s) -> TrProofs.texts d.
Proof.
  intros F k K. assert (A : among codes (Bytes k) = true) by (rewrite <- HK; unfold has_of; now destruct (d k)).
  unfold among in A. apply existsb_exists in A as (x & I & E). destruct (list_eq_dec Z.eq_dec (coded x) (coded (Bytes k))) as [E'|]; [|easy].
  cbn in F. rewrite Forall_forall in F. destruct (F x I) as (cs & P & EQ). exists cs. split; [exact P|]. change k with (coded (Bytes k)). rewrite <- E'. exact EQ.
Qed.

Lemma bytes_loops keep repl w l : clean w -> cuts (fun k => among codes (Bytes k)) w l -> forall fuel, (length w < fuel)%nat ->
  filter_loop fuel t w [] = Ok (without l) /\ replace_loop fuel t w repl keep false [] = Ok (with_repl repl keep false l).
Proof.
  intros W C fuel LF.
  destruct (loops_ok t d (fun c => [c]) (fun c => 0 < c < 256)) with (keep := keep) (repl := repl) (cs := w) (l := l) (fuel := fuel) (r := @nil Z) (last := false) as [A B]; try easy.
  - intros cs OK. rewrite !lay_self. destruct (bytes_search t d H D cs OK) as (v & E). exists v. rewrite E. do 3 f_equal.
    rewrite (longest_ext (on d (fun c => [c])) (has_of d)) by (intros k; unfold on; now rewrite lay_self).
    rewrite firstn_length. pose proof (longest_spec (has_of d) [] cs (length cs)) as (L & _). lia.
  - intros c cs a b _ _ E NA NB. destruct a as [|a0 [|a1 a]]; [easy| |easy]. destruct b; easy.
  - eapply cuts_ext; [|exact C]. intros k. unfold on. now rewrite lay_self, HK.
  - now rewrite lay_self.
  - cbn [app] in A, B. rewrite !lay_self in A. rewrite !lay_self in B. exact (conj A B).
Qed.
Lemma str_search cs : TrProofs.texts d -> Forall point cs -> ~ In 0 cs ->
  exists v, search t (enc cs) 0 = Ok (Z.of_nat (length (enc (firstn (longest_known (fun k => has_of d (enc k)) [] cs (length cs)) cs))), v).
Proof.
  intros T P NZ. destruct (bytes_search t d H D (enc cs) (enc_clean cs P NZ)) as (v & E). exists v. rewrite E. do 3 f_equal.
  apply (longest_enc d T []); [constructor|exact P].
Qed.
Lemma str_loops keep repl w l : codes_for codes (Str w) -> Forall point w -> ~ In 0 w -> cuts (fun k => among codes (Str k)) w l -> forall fuel, (length (enc w) < fuel)%nat ->
  filter_loop fuel t (enc w) [] = Ok (enc (without l)) /\ replace_loop fuel t (enc w) (enc repl) keep false [] = Ok (enc (with_repl repl keep false l)).
Proof.
  intros TX P NZ C fuel LF. apply texts_of in TX.
  assert (SPLIT : forall cs, Forall (fun c => point c /\ c <> 0) cs -> Forall point cs /\ ~ In 0 cs).
  { intros cs F. rewrite Forall_forall in F. split; [apply Forall_forall; intros; now apply F|]. intros I. now apply F in I as [_ I]. }
  change enc with (lay TrSpec.enc1).
  apply (loops_ok t d TrSpec.enc1 (fun c => point c /\ c <> 0)) with (r := @nil Z); try easy.
  - intros cs OK. apply SPLIT in OK as [PC ZC]. now apply str_search.
  - intros c cs a b [PC ZC] OK E NA NB. apply SPLIT in OK as [PS ZS].
    assert (CL : clean (b ++ enc cs)).
    { apply Forall_app. split; [|now apply enc_clean]. assert (X : clean (enc [c])) by (apply enc_clean; [apply Forall_cons; [exact PC|apply Forall_nil]|intros [I|[]]; congruence]).
      cbn in X. rewrite app_nil_r, E in X. now apply Forall_app in X. }
    destruct (search_ok t d (b ++ enc cs) 0 H D CL) as (n & v & ES & L & V & G). exists v. unfold lay. fold (TrSpec.enc cs). change (TrSpec.enc cs) with (enc cs). rewrite ES.
    destruct V as [[-> _]|[N V]]; [reflexivity|]. exfalso. destruct (TX (firstn n (b ++ enc cs))) as (k & PK & EK); [congruence|].
    destruct (enc1_shape c PC) as (h & r & ES1 & _ & FR). destruct a as [|a0 a]; [easy|]. destruct b as [|b0 b]; [easy|].
    rewrite E in ES1. injection ES1 as _ ER. destruct n as [|n]; [lia|]. cbn [app firstn] in EK.
    destruct k as [|c' k]; [easy|]. destruct (enc1_shape c' (Forall_inv PK)) as (h' & r' & E' & R' & _). cbn in EK. rewrite E' in EK. injection EK as -> _.
    rewrite <- ER in FR. apply Forall_app in FR as [_ FR]. apply Forall_inv in FR. lia.
  - intros c. apply TrProofs.enc1_ne.
  - eapply cuts_ext; [|exact C]. intros k. exact (among_kind (Str w) k).
  - apply Forall_forall. intros c I. split; [|intros ->; easy]. rewrite Forall_forall in P. now apply P.
Qed.
End Text.

Lemma without_in l c : In c (without l) -> In c (flat_map snd l).
Proof.
  induction l as [|[b k] l IH]; [easy|]. cbn. rewrite !in_app_iff. intros [I|I]; [|right; now apply IH]. destruct b; [easy|now left].
Qed.
Lemma with_repl_in repl each : forall l after c, In c (with_repl repl each after l) -> In c repl \/ In c (flat_map snd l).
Proof.
  induction l as [|[b k] l IH]; intros after c; [easy|]. cbn. rewrite in_app_iff. destruct b; rewrite in_app_iff; intros [I|I].
  - destruct (each || negb after); [now left|easy].
  - apply IH in I as [I|I]; [now left|right; now right].
  - right; now left.
  - apply IH in I as [I|I]; [now left|right; now right].
Qed.
Lemma with_nothing each : forall l after, with_repl [] each after l = without l.
Proof. induction l as [|[[] k] l IH]; intros after; cbn; [reflexivity| |]; rewrite IH; [now destruct (each || negb after)|reflexivity]. Qed.
Lemma Forall_sub {A} (P : A -> Prop) a b : (forall c, In c a -> In c b) -> Forall P b -> Forall P a.
Proof. intros S F. rewrite Forall_forall in *. auto. Qed.

Lemma filter_ok codes t d x l : TrProofs.Holds t d -> deep d -> (forall k, has_of d k = among codes (Bytes k)) ->
  good_text x -> codes_for codes x -> cuts (fun cs => among codes (remake x cs)) (chars x) l ->
  filter_text t (Text x) = Ok (remake x (without l)).
Proof.
  intros H D HK [P NZ] TX C. destruct x as [w|cs]; cbn [filter_text remake chars] in *.
  - destruct (coded_clean (Bytes w) (conj P NZ)) as [CL _]. unfold filter_bytes. destruct (bytes_loops t codes d H D HK false [] w l CL C (S (length w)) (Nat.lt_succ_diag_r _)) as [-> _]. reflexivity.
  - rewrite TrProofs.encode_enc by exact P. cbn [bind]. unfold filter_bytes.
    destruct (str_loops t codes d H D HK false [] cs l TX P NZ C (S (length (enc cs))) (Nat.lt_succ_diag_r _)) as [E _]. fold (enc cs). rewrite E. cbn [bind].
    rewrite decode_enc; [reflexivity|]. apply (Forall_sub _ _ cs); [|exact P]. intros c I. rewrite <- (cuts_all _ _ _ C). now apply without_in.
Qed.
Lemma replace_ok codes t d x l repl keep : TrProofs.Holds t d -> deep d -> (forall k, has_of d k = among codes (Bytes k)) ->
  good_text x -> codes_for codes x -> proper (remake x repl) -> cuts (fun cs => among codes (remake x cs)) (chars x) l ->
  replace_text t (Text x) (Text (remake x repl)) keep = Ok (remake x (with_repl repl keep false l)).
Proof.
  intros H D HK GT TX PR C. destruct repl as [|q0 repl'] eqn:ER.
  { rewrite with_nothing. pose proof (filter_ok codes t d x l H D HK GT TX C) as F. destruct x as [w|cs]; cbn in F |- *; [exact F|].
    destruct (utf8_encode cs); easy. }
  rewrite <- ER in *. destruct GT as [P NZ]. destruct x as [w|cs]; cbn [replace_text remake chars] in *.
  - destruct (coded_clean (Bytes w) (conj P NZ)) as [CL _]. unfold replace_bytes. rewrite ER. rewrite <- ER.
    destruct (bytes_loops t codes d H D HK keep repl w l CL C (S (length w)) (Nat.lt_succ_diag_r _)) as [_ ->]. reflexivity.
  - rewrite TrProofs.encode_enc by exact P. cbn [bind]. rewrite TrProofs.encode_enc by exact PR. cbn [bind]. unfold replace_bytes.
    destruct (str_loops t codes d H D HK keep repl cs l TX P NZ C (S (length (enc cs))) (Nat.lt_succ_diag_r _)) as [_ E].
    assert (NE : enc repl <> []) by (apply enc_nonempty; now rewrite ER). fold (enc repl). fold (enc cs). destruct (enc repl); [easy|]. rewrite E. cbn [bind].
    rewrite decode_enc; [reflexivity|]. apply Forall_forall. intros c I. apply with_repl_in in I as [I|I].
    + cbn in PR. rewrite Forall_forall in PR. now apply PR.
    + rewrite (cuts_all _ _ _ C) in I. cbn in P. rewrite Forall_forall in P. now apply P.
Qed.

Lemma check_ok codes t d x pos : TrProofs.Holds t d -> deep d -> (forall k, has_of d k = among codes (Bytes k)) ->
  good_text x -> codes_for codes x -> start x pos ->
  check_text t (Text x) pos = Ok (Z.of_nat (longest_known (fun cs => among codes (remake x cs)) [] (TrSpec.from pos (chars x)) (length (TrSpec.from pos (chars x))))).
Proof.
  intros H D HK [P NZ] TX ST. destruct x as [w|cs]; cbn [check_text remake chars start] in *.
  - destruct (coded_clean (Bytes w) (conj P NZ)) as [CL _]. unfold check_bytes.
    assert (B : 0 <= slice_index_correction pos (Z.of_nat (length w)) <= Z.of_nat (length w)).
    { unfold slice_index_correction. destruct (Z.ltb_spec pos 0); [destruct (Z.ltb_spec pos (- Z.of_nat (length w)))|destruct (Z.ltb_spec (Z.of_nat (length w)) pos)]; lia. }
    destruct (Z.ltb_spec (Z.of_nat (length w)) (slice_index_correction pos (Z.of_nat (length w)))); [lia|].
    rewrite <- TrProofs.from_substr. unfold substr.
    destruct (bytes_search t d H D (skipn (Z.to_nat (slice_index_correction pos (Z.of_nat (length w)))) w) ltac:(now apply Forall_skipn)) as (v & ->). cbn [bind].
    do 2 f_equal. apply longest_ext. exact HK.
  - assert (E0 : slice_index_correction pos (Z.of_nat (length cs)) = 0).
    { unfold slice_index_correction. destruct (Z.ltb_spec pos 0); [destruct (Z.ltb_spec pos (- Z.of_nat (length cs)))|destruct (Z.ltb_spec (Z.of_nat (length cs)) pos)]; lia. }
    assert (F0 : TrSpec.from pos cs = cs) by (rewrite <- TrProofs.from_substr; unfold substr; now rewrite E0).
    rewrite E0, F0. cbn [Z.to_nat skipn Nat.add]. destruct (Nat.ltb_spec (length cs + 1) (length cs)); [lia|].
    rewrite firstn_app, firstn_all, Nat.sub_diag. cbn [firstn]. rewrite app_nil_r.
    rewrite TrProofs.encode_enc by exact P. cbn [bind]. unfold check_bytes. destruct (Z.ltb_spec (Z.of_nat (length (TrSpec.enc cs))) 0); [lia|]. cbn [Z.to_nat skipn].
    pose proof (texts_of codes d HK cs TX) as TD. destruct (str_search t d H D cs TD P NZ) as (v & E). fold (enc cs). rewrite E. cbn [bind]. rewrite Nat2Z.id, enc_take.
    rewrite (longest_ext (fun cs => among codes (Str cs)) (fun k => has_of d (enc k))) by (intros k; rewrite HK; reflexivity).
    pose proof (longest_spec (fun k => has_of d (enc k)) [] cs (length cs)) as (L & _).
    unfold enc at 1. rewrite TrProofs.count_enc by now apply Forall_firstn. rewrite firstn_length. do 2 f_equal. lia.
Qed.
