From Verif Require Import Base Utf8Model Utf8Spec Utf8Proofs FrModel FrSpec.
Local Open Scope Z_scope.
Arguments len {A} l : simpl never.

Lemma len_nil {A} : len (@nil A) = 0. Proof. reflexivity. Qed.
Lemma len_cons {A} (x : A) l : len (x :: l) = len l + 1. Proof. unfold len. cbn [length]. lia. Qed.
Lemma len_app {A} (a b : list A) : len (a ++ b) = len a + len b. Proof. unfold len. rewrite app_length. lia. Qed.
Lemma len_pos {A} (l : list A) : 0 <= len l. Proof. unfold len. lia. Qed.
Lemma len_zero {A} (l : list A) : len l = 0 -> l = []. Proof. unfold len. destruct l; [easy|cbn; lia]. Qed.
Lemma to_len {A} (l : list A) : Z.to_nat (len l) = length l. Proof. unfold len. lia. Qed.

(** ** Bytes in a buffer *)
Definition seg (d : Z -> option Z) (off : Z) (l : list Z) : Prop :=
  forall i, (i < length l)%nat -> d (off + Z.of_nat i) = nth_error l i.
Lemma seg_nil d off : seg d off []. Proof. intros i Hi. cbn in Hi. lia. Qed.
Lemma seg_cons d off b l : seg d off (b :: l) <-> d off = Some b /\ seg d (off + 1) l.
Proof.
  split.
  - intros H. split; [specialize (H O); cbn in H; rewrite Z.add_0_r in H; apply H; lia|].
    intros i Hi. specialize (H (S i)). cbn [length nth_error] in H.
    replace (off + 1 + Z.of_nat i) with (off + Z.of_nat (S i)) by lia. apply H. lia.
  - intros [H0 H1] [|i] Hi; cbn [nth_error].
    + now rewrite Z.add_0_r.
    + replace (off + Z.of_nat (S i)) with (off + 1 + Z.of_nat i) by lia. apply H1. cbn in Hi. lia.
Qed.
Lemma seg_app d : forall a off b, seg d off (a ++ b) <-> seg d off a /\ seg d (off + len a) b.
Proof.
  induction a as [|x a IH]; intros off b; cbn [app].
  - rewrite len_nil, Z.add_0_r. split; [intros H; split; [apply seg_nil|easy]|easy].
  - rewrite !seg_cons, IH, len_cons. replace (off + 1 + len a) with (off + (len a + 1)) by lia. tauto.
Qed.
Lemma seg_bytes d c : forall l off, seg d off l -> 0 <= off -> off + len l <= c -> bytes_at d c off (length l) = Ok l.
Proof.
  induction l as [|b l IH]; intros off H H0 Hc; [easy|].
  apply seg_cons in H as [Hb H]. rewrite len_cons in Hc. pose proof (len_pos l).
  cbn [length bytes_at]. rewrite (proj2 (Z.leb_le 0 off)), (proj2 (Z.ltb_lt off c)), Hb by lia.
  cbn. rewrite IH by (assumption || lia). easy.
Qed.
Lemma seg_store d off l : seg (store d off l) off l.
Proof.
  intros i Hi. unfold store. rewrite (proj2 (Z.leb_le _ _)), (proj2 (Z.ltb_lt _ _)) by (unfold len; lia).
  cbn. now replace (Z.to_nat (off + Z.of_nat i - off)) with i by lia.
Qed.
Lemma seg_store_off d off l o2 l2 : seg d o2 l2 -> o2 + len l2 <= off \/ off + len l <= o2 -> seg (store d off l) o2 l2.
Proof.
  intros H Ho i Hi. rewrite <- H by easy. unfold store.
  destruct ((off <=? o2 + Z.of_nat i) && (o2 + Z.of_nat i <? off + len l)) eqn:E; [|easy].
  apply andb_prop in E as [E1 E2]. apply Z.leb_le in E1. apply Z.ltb_lt in E2. unfold len in *. lia.
Qed.
Lemma seg_eq d d' off l : seg d off l -> (forall i, off <= i < off + len l -> d' i = d i) -> seg d' off l.
Proof. intros H E i Hi. rewrite E by (unfold len; lia). now apply H. Qed.

(** The filled part of the buffer that is still to be delivered *)
Definition window (r : reader) (w : list Z) : Prop :=
  0 <= pos r /\ lim r <= cap r /\ lim r = pos r + len w /\ seg (dat r) (pos r) w.
Lemma window_copy r w : window r w -> copy r (pos r) (lim r - pos r) = Ok w.
Proof.
  intros (H0 & H1 & H2 & H3). unfold copy. replace (Z.to_nat (lim r - pos r)) with (length w) by (unfold len in *; lia).
  now apply seg_bytes; try lia.
Qed.
Lemma seg_copy r off l n : seg (dat r) off l -> 0 <= off -> off + len l <= cap r -> n = len l -> copy r off n = Ok l.
Proof. intros H H0 H1 ->. unfold copy. rewrite to_len. now apply seg_bytes. Qed.

(** ** Lines *)
Lemma lines_cut : forall a b, ~ In 10 a -> lines (a ++ 10 :: b) = (a ++ [10]) :: lines b.
Proof.
  induction a as [|x a IH]; intros b Ha; [easy|]. cbn [app lines].
  destruct (x =? 10) eqn:E; [apply Z.eqb_eq in E; subst; exfalso; apply Ha; now left|].
  rewrite IH by (intros Hi; apply Ha; now right). easy.
Qed.
Lemma lines_one : forall a, ~ In 10 a -> a <> [] -> lines a = [a].
Proof.
  induction a as [|x a IH]; intros Ha Hn; [easy|]. cbn [lines].
  destruct (x =? 10) eqn:E; [apply Z.eqb_eq in E; subst; exfalso; apply Ha; now left|].
  destruct a as [|y a]; [easy|]. rewrite IH; [easy| |easy]. intros Hi. apply Ha. now right.
Qed.
Lemma concat_lines : forall s, concat (lines s) = s.
Proof.
  induction s as [|c s IH]; [easy|]. cbn [lines]. destruct (c =? 10) eqn:E.
  - apply Z.eqb_eq in E. subst. cbn. now rewrite IH.
  - destruct (lines s) as [|l ls]; cbn in *; now rewrite <- IH.
Qed.
Lemma split_line s : (exists a b, s = a ++ 10 :: b /\ ~ In 10 a) \/ ~ In 10 s.
Proof.
  induction s as [|c s IH]; [right; easy|].
  destruct (Z.eq_dec c 10) as [->|Hc]; [left; exists [], s; easy|].
  destruct IH as [(a & b & -> & Ha)|H].
  - left. exists (c :: a), b. split; [easy|]. intros [E|E]; [now apply Hc|now apply Ha].
  - right. intros [E|E]; [now apply Hc|now apply H].
Qed.

(** ** readLineFromBuffer *)
Lemma find_found r b : forall a e, ~ In 10 a -> seg (dat r) e (a ++ 10 :: b) -> 0 <= e -> e + len (a ++ 10 :: b) <= cap r ->
  forall fuel, (length a < fuel)%nat -> find_end fuel r e = Ok (e + len a).
Proof.
  induction a as [|x a IH]; intros e Ha H H0 Hc fuel Hf; (destruct fuel as [|fuel]; [cbn in Hf; lia|]).
  - cbn [app] in *. apply seg_cons in H as [H _]. rewrite len_cons in Hc. pose proof (len_pos b).
    cbn [find_end]. rewrite (seg_copy r e [10] 1); [cbn; rewrite len_nil; f_equal; lia| |lia|rewrite len_cons, len_nil; lia|easy].
    apply seg_cons. split; [easy|apply seg_nil].
  - cbn [app] in *. apply seg_cons in H as [Hx H]. rewrite len_cons in Hc. pose proof (len_pos (a ++ 10 :: b)).
    cbn [find_end]. rewrite (seg_copy r e [x] 1); [|apply seg_cons; split; [easy|apply seg_nil]|lia|rewrite len_cons, len_nil; lia|easy].
    cbn [bind hd]. destruct (x =? 10) eqn:E; [apply Z.eqb_eq in E; subst; exfalso; apply Ha; now left|].
    rewrite IH; [f_equal; rewrite len_cons; lia| |easy|lia|lia|cbn in Hf; lia]. intros Hi. apply Ha. now right.
Qed.
Lemma find_none r : forall a e, ~ In 10 a -> seg (dat r) e a -> 0 <= e -> e + len a <= cap r -> find_end (length a) r e = Ok (e + len a).
Proof.
  induction a as [|x a IH]; intros e Ha H H0 Hc; [cbn; now rewrite len_nil, Z.add_0_r|].
  apply seg_cons in H as [Hx H]. rewrite len_cons in Hc. pose proof (len_pos a).
  cbn [length find_end]. rewrite (seg_copy r e [x] 1); [|apply seg_cons; split; [easy|apply seg_nil]|lia|rewrite len_cons, len_nil; lia|easy].
  cbn [bind hd]. destruct (x =? 10) eqn:E; [apply Z.eqb_eq in E; subst; exfalso; apply Ha; now left|].
  rewrite IH; [f_equal; rewrite len_cons; lia| |easy|lia|lia]. intros Hi. apply Ha. now right.
Qed.
Lemma window_grow r w : window r w -> window (grow r) w.
Proof.
  intros (H0 & H1 & H2 & H3). pose proof (len_pos w). unfold window, grow. cbn [pos lim cap dat].
  repeat split; try lia. apply (seg_eq (dat r)); [easy|]. intros i Hi.
  now rewrite (proj2 (Z.leb_le 0 i)), (proj2 (Z.ltb_lt i (cap r))) by lia.
Qed.
Lemma buffer_line r a b : window r (a ++ 10 :: b) -> ~ In 10 a -> keep r = true ->
  line_from_buffer r = Ok (set_window r (pos r + len a + 1) (lim r), Some (Ptr (gen r) (pos r) (len a + 1))).
Proof.
  intros (H0 & H1 & H2 & H3) Ha Hk. unfold line_from_buffer. rewrite len_app, len_cons in H2.
  pose proof (len_pos a). pose proof (len_pos b).
  rewrite (proj2 (Z.eqb_neq _ _)) by lia.
  rewrite (find_found r b a); [|easy|easy|lia|rewrite len_app, len_cons; lia|unfold len in *; lia].
  cbn [bind]. rewrite (proj2 (Z.eqb_neq _ _)) by lia. rewrite Hk. cbn. do 3 f_equal. f_equal. lia.
Qed.
Lemma buffer_none r w : window r w -> ~ In 10 w -> 
  line_from_buffer r = Ok (if negb (len w =? 0) && (pos r =? 0) && (cap r <=? lim r + 1) then grow r else r, None).
Proof.
  intros (H0 & H1 & H2 & H3) Hw. unfold line_from_buffer.
  destruct (pos r =? lim r) eqn:E.
  - apply Z.eqb_eq in E. rewrite (proj2 (Z.eqb_eq _ _)) by lia. easy.
  - apply Z.eqb_neq in E. rewrite (proj2 (Z.eqb_neq (len w) 0)) by lia.
    replace (Z.to_nat (lim r - pos r)) with (length w) by (unfold len in *; lia).
    rewrite find_none by (easy || lia). cbn [bind]. rewrite (proj2 (Z.eqb_eq _ _)) by lia.
    rewrite <- H2. easy.
Qed.

(** ** How the buffer grows *)
Lemma grown_enough : forall fuel c n, 1 <= c -> n <= c + Z.of_nat fuel -> grown (S fuel) c n = grown fuel c n.
Proof.
  induction fuel as [|fuel IH]; intros c n Hc Hn.
  - cbn. now rewrite (proj2 (Z.leb_le n c)) by lia.
  - transitivity (if n <=? c then c else grown (S fuel) (2 * c) n); [easy|].
    transitivity (if n <=? c then c else grown fuel (2 * c) n); [|easy].
    destruct (n <=? c); [easy|]. apply IH; lia.
Qed.
Lemma grown_step c n : 1 <= c -> c < n -> grown (Z.to_nat n) c n = grown (Z.to_nat n) (2 * c) n.
Proof.
  intros Hc Hn. assert (H : Z.to_nat n = S (Z.to_nat (n - 1))) by lia. rewrite H.
  transitivity (grown (Z.to_nat (n - 1)) (2 * c) n).
  - cbn [grown]. now rewrite (proj2 (Z.leb_gt n c)) by lia.
  - rewrite grown_enough by lia. easy.
Qed.
Lemma grown_fits c n : 1 <= c -> n <= c -> grown (Z.to_nat n) c n = c.
Proof. intros Hc Hn. destruct (Z.to_nat n); cbn; [easy|]. now rewrite (proj2 (Z.leb_le n c)) by lia. Qed.

(** ** States: lines may follow, all was read and noticed, all lines were delivered *)
Definition at_ (r : reader) (s : list Z) : Prop :=
  last_line r = false /\ keep r = true /\ 1 <= cap r /\ (pos r = 0 -> lim r < cap r) /\ exists w, window r w /\ s = w ++ rest r.
Definition ended (r : reader) : Prop := last_line r = true /\ keep r = true /\ 1 <= cap r /\ rest r = [].
Definition done (r : reader) : Prop := ended r /\ window r [].
Definition fresh (r : reader) (a : list Z) (c : Z) : Prop :=
  rest r = [] \/ (lim r = cap r /\ pos r = len a + 1 /\ cap r = grown (Z.to_nat (len a + 1)) c (len a + 1)).

Lemma text_ok r g off n l : g = gen r -> seg (dat r) off l -> 0 <= off -> off + len l <= cap r -> n = len l -> text_of r (Ptr g off n) = Ok l.
Proof. intros -> H H0 H1 H2. unfold text_of. cbn. rewrite Nat.eqb_refl. now apply seg_copy. Qed.

Lemma sys_read_window r w n : window r w -> lim r + n <= cap r -> 0 <= n -> 
  forall r1 rs, sys_read r (lim r) n = (r1, rs) ->
  exists bs, rs = len bs /\ rest r = bs ++ rest r1 /\ bs = firstn (Z.to_nat n) (rest r) /\ len bs <= n /\ (len bs < n -> rest r1 = []) /\
    window (set_window r1 (pos r1) (lim r1 + rs)) (w ++ bs) /\
    pos r1 = pos r /\ lim r1 = lim r /\ cap r1 = cap r /\ gen r1 = gen r /\ last_line r1 = last_line r /\ keep r1 = keep r /\ window r1 w.
Proof.
  intros (H0 & H1 & H2 & H3) Hn Hn0 r1 rs. unfold sys_read. intros E. injection E as <- <-. cbn [rest pos lim cap gen last_line keep].
  set (bs := firstn (Z.to_nat n) (rest r)). exists bs.
  assert (Hb : len bs <= n) by (unfold len, bs; rewrite firstn_length; lia).
  split; [easy|]. split; [unfold bs; now rewrite firstn_skipn|]. split; [easy|]. split; [easy|].
  split. { intros Hl. unfold bs, len in Hl. rewrite firstn_length in Hl. apply skipn_all2. lia. }
  repeat split; cbn [pos lim cap dat set_window]; try lia.
  - rewrite len_app. lia.
  - apply seg_app. split; [apply seg_store_off; [easy|lia]|]. rewrite <- H2. apply seg_store.
  - apply seg_store_off; [easy|lia].
Qed.

Lemma refill_ok : forall fuel r w, window r w -> pos r = 0 -> lim r < cap r -> ~ In 10 w -> keep r = true -> last_line r = false ->
  (length (rest r) < fuel)%nat ->
  (w ++ rest r = [] /\ exists r', refill fuel r = Ok (r', None) /\ done r') \/
  (w ++ rest r <> [] /\ ~ In 10 (w ++ rest r) /\
     exists r' p, refill fuel r = Ok (r', Some p) /\ text_of r' p = Ok (w ++ rest r) /\ ended r' /\ window r' (w ++ rest r)) \/
  (exists a b r' p, w ++ rest r = a ++ 10 :: b /\ ~ In 10 a /\ refill fuel r = Ok (r', Some p) /\
     text_of r' p = Ok (a ++ [10]) /\ at_ r' b /\ fresh r' a (cap r)).
Proof.
  induction fuel as [|fuel IH]; intros r w W Hp Hl Hw Hk Hll Hf; [lia|].
  cbn [refill]. pose proof W as (W0 & W1 & W2 & W3). pose proof (len_pos w).
  destruct (sys_read r (lim r) (cap r - lim r)) as [r1 rs] eqn:Er.
  eapply sys_read_window in Er as (bs & -> & Hr & Hbs & Hbn & Hend & Wn & P1 & L1 & C1 & G1 & LL1 & K1 & W1'); [|exact W|lia|lia].
  destruct (len bs <=? 0) eqn:Eb.
  - apply Z.leb_le in Eb. pose proof (len_pos bs). assert (bs = []) as -> by (apply len_zero; lia).
    rewrite Hend in Hr by (rewrite len_nil; lia). cbn [app] in Hr. rewrite Hr, app_nil_r.
    assert (R1 : rest r1 = []) by (apply Hend; rewrite len_nil; lia).
    destruct w as [|x w].
    + left. split; [easy|]. exists (set_last r1). cbn [set_last pos lim]. rewrite P1, L1. rewrite W2, len_nil, Hp. cbn.
      split; [easy|]. split; [repeat split; cbn; try easy; try congruence; rewrite len_nil in W2; lia|].
      destruct W1' as (? & ? & ? & ?). repeat split; cbn; easy.
    + right. left. split; [easy|]. split; [easy|]. rewrite len_cons in W2. pose proof (len_pos w).
      exists (set_last r1), (Ptr (gen r1) (pos r1) (lim r1 - pos r1)). cbn [set_last pos lim gen].
      rewrite (proj2 (Z.ltb_lt (pos r1) (lim r1))) by lia. split; [easy|]. split.
      * apply text_ok; cbn; try easy; try lia.
        -- now destruct W1' as (? & ? & ? & ?).
        -- rewrite len_cons; lia.
        -- rewrite len_cons; lia.
      * split; [repeat split; cbn; try easy; try congruence; lia|]. destruct W1' as (? & ? & ? & ?). repeat split; cbn; easy.
  - apply Z.leb_gt in Eb. set (r2 := set_window r1 (pos r1) (lim r1 + len bs)) in *.
    assert (Ew : w ++ rest r = (w ++ bs) ++ rest r1) by (rewrite Hr; now rewrite app_assoc).
    destruct (split_line (w ++ bs)) as [(a & b & E & Ha)|Hno].
    + right. right. rewrite E in Wn. rewrite (buffer_line r2 a b) by (cbn; congruence). cbn [bind].
      exists a, (b ++ rest r1). eexists. eexists. split; [rewrite Ew, E, <- app_assoc; easy|]. split; [easy|]. split; [reflexivity|].
      destruct Wn as (V0 & V1 & V2 & V3). rewrite len_app, len_cons in V2. cbn [r2 set_window pos lim cap dat gen] in V0, V1, V2, V3.
      pose proof (len_pos a). pose proof (len_pos b).
      change (a ++ 10 :: b) with (a ++ [10] ++ b) in V3. rewrite app_assoc in V3. apply seg_app in V3 as [V3 V4].
      rewrite len_app, len_cons, len_nil in V4. split.
      * apply text_ok; cbn; try easy; rewrite len_app, len_cons, len_nil; lia.
      * split.
        -- repeat split; cbn; try congruence; try lia. exists b. split; [|easy]. repeat split; cbn; try lia.
           now replace (pos r1 + len a + 1) with (pos r1 + (len a + (0 + 1))) by lia.
        -- unfold fresh. cbn. destruct (Z.eq_dec (len bs) (cap r - lim r)) as [Ef|Ef]; [right|left; apply Hend; lia].
           split; [lia|]. split; [lia|]. rewrite grown_fits; lia.
    + rewrite (buffer_none r2 (w ++ bs)) by easy. cbn [bind]. rewrite len_app. rewrite (proj2 (Z.eqb_neq (len w + len bs) 0)) by lia.
      cbn [negb andb]. replace (pos r2) with 0 by (cbn; lia). cbn [Z.eqb andb].
      rewrite Ew. replace (cap r2) with (cap r) by (cbn; lia). replace (lim r2) with (lim r + len bs) by (cbn; lia).
      destruct (cap r <=? lim r + len bs + 1) eqn:Eg.
      * apply Z.leb_le in Eg.
        destruct (IH (grow r2) (w ++ bs)) as [C|[C|C]]; [now apply window_grow|cbn; lia|cbn [grow r2 set_window lim cap]; lia|easy|cbn; congruence|cbn; congruence| | | |].
        { cbn. assert (length (rest r) = length bs + length (rest r1))%nat by (rewrite Hr, app_length; easy). unfold len in *. lia. }
        -- left. cbn [grow rest] in C. easy.
        -- right. left. cbn [grow rest] in C. easy.
        -- right. right. destruct C as (a & b & r' & p & E & Ha & C1' & C2 & C3 & C4).
           exists a, b, r', p. cbn [grow rest r2 set_window] in E. repeat (split; [easy|]).
           destruct C4 as [C4|(C4 & C5 & C6)]; [left; easy|].
           destruct (Z.eq_dec (len bs) (cap r - lim r)) as [Ef|Ef].
           ++ right. split; [easy|]. split; [easy|]. rewrite C6. cbn [grow cap r2 set_window]. rewrite C1. symmetry. apply grown_step; [lia|].
              assert (Hlong : len (w ++ bs) <= len a).
              { destruct (Z_le_gt_dec (len (w ++ bs)) (len a)) as [?|Hgt]; [easy|]. exfalso. apply Hno.
                replace (w ++ bs) with (firstn (length (w ++ bs)) ((w ++ bs) ++ rest r1)) by (rewrite firstn_app, Nat.sub_diag, firstn_all, app_nil_r; easy).
                rewrite E. rewrite firstn_app. apply in_or_app. right.
                replace (length (w ++ bs) - length a)%nat with (S (length (w ++ bs) - length a - 1)) by (unfold len in *; lia). now left. }
              rewrite len_app in Hlong. lia.
           ++ exfalso. rewrite Hend in E by lia. rewrite app_nil_r in E. apply Hno. rewrite E. apply in_or_app. right. now left.
      * apply Z.leb_gt in Eg.
        destruct (IH r2 (w ++ bs)) as [C|[C|C]]; [easy|cbn; lia|cbn; lia|easy|cbn; congruence|cbn; congruence| | | |].
        { cbn. assert (length (rest r) = length bs + length (rest r1))%nat by (rewrite Hr, app_length; easy). unfold len in *. lia. }
        -- left. easy.
        -- right. left. easy.
        -- right. right. destruct C as (a & b & r' & p & E & Ha & C1' & C2 & C3 & C4).
           exists a, b, r', p. repeat (split; [easy|]). unfold fresh in *. cbn [r2 set_window cap] in C4. now rewrite C1 in C4.
Qed.

Definition lens (s : list Z) : list Z := line_lengths s.
Definition held (r : reader) (s : list Z) : Prop :=
  at_ r s /\ (rest r = [] \/ sound (cap r) (lim r) (lim r - pos r) (line_lengths s)).
Lemma lens_cut a b : ~ In 10 a -> line_lengths (a ++ 10 :: b) = (len a + 1) :: line_lengths b.
Proof. intros Ha. unfold line_lengths. rewrite lines_cut by easy. cbn [map]. f_equal. fold (len (a ++ [10])). now rewrite len_app, len_cons, len_nil. Qed.
Lemma lens_nil s : line_lengths s = [] -> s = [].
Proof. unfold line_lengths. intros H. rewrite <- (concat_lines s). destruct (lines s); [easy|discriminate]. Qed.
Lemma cut_in a b w t : a ++ 10 :: b = w ++ t -> ~ In 10 a -> ~ In 10 w -> exists a', a = w ++ a' /\ t = a' ++ 10 :: b.
Proof.
  revert w. induction a as [|x a IH]; intros w E Ha Hw.
  - destruct w as [|y w]; [exists []; easy|]. cbn in E. injection E as E1 E2. subst. exfalso. apply Hw. now left.
  - destruct w as [|y w]; [exists (x :: a); easy|]. cbn in E. injection E as E1 E2. subst y.
    destruct (IH w E2) as (a' & -> & ->); [intros ?; apply Ha; now right|intros ?; apply Hw; now right|]. exists a'. easy.
Qed.
Lemma cut_same a b a' b' : a ++ 10 :: b = a' ++ 10 :: b' -> ~ In 10 a -> ~ In 10 a' -> a = a' /\ b = b'.
Proof.
  revert a'. induction a as [|x a IH]; intros [|y a'] E Ha Ha'; cbn in E.
  - now injection E.
  - injection E as E1 E2. subst. exfalso. apply Ha'. now left.
  - injection E as E1 E2. subst. exfalso. apply Ha. now left.
  - injection E as E1 E2. subst y. destruct (IH a' E2) as [-> ->]; [intros ?; apply Ha; now right|intros ?; apply Ha'; now right|easy].
Qed.

(** A line that ends inside the buffer *)
Lemma line_inside r a b : at_ r (a ++ 10 :: b ++ rest r) -> window r (a ++ 10 :: b) -> ~ In 10 a -> b <> [] ->
  exists r' p, read_line r = Ok (r', Some p) /\ text_of r' p = Ok (a ++ [10]) /\ at_ r' (b ++ rest r) /\ rest r' = rest r /\
    cap r' = cap r /\ lim r' = lim r /\ pos r' = pos r + (len a + 1).
Proof.
  intros (A1 & A2 & A3 & A4 & _) W Ha Hb. unfold read_line. rewrite A1. rewrite (buffer_line r a b) by easy. cbn [bind set_window pos lim].
  destruct W as (V0 & V1 & V2 & V3). rewrite len_app, len_cons in V2. pose proof (len_pos a).
  assert (Hbp : 0 < len b) by (pose proof (len_pos b); destruct (Z.eq_dec (len b) 0) as [E|E]; [apply len_zero in E; easy|lia]).
  rewrite (proj2 (Z.eqb_neq _ _)) by lia.
  change (a ++ 10 :: b) with (a ++ [10] ++ b) in V3. rewrite app_assoc in V3. apply seg_app in V3 as [V3 V4].
  rewrite len_app, len_cons, len_nil in V4.
  eexists. eexists. split; [reflexivity|]. split; [apply text_ok; cbn; try easy; rewrite len_app, len_cons, len_nil; lia|].
  split; [|cbn; repeat split; lia]. repeat split; cbn; try easy; try lia. exists b. split; [|easy]. repeat split; cbn; try lia.
  now replace (pos r + len a + 1) with (pos r + (len a + (0 + 1))) by lia.
Qed.
(** A line that ends where the filled part ends: the next bytes are fetched over it *)
Lemma line_edge r a : at_ r (a ++ 10 :: rest r) -> window r (a ++ [10]) -> ~ In 10 a -> rest r = [] \/ lim r = cap r ->
  exists r' p, read_line r = Ok (r', Some p) /\ text_of r' p = Ok (a ++ [10]) /\
    (rest r = [] /\ done r' \/
     rest r <> [] /\ at_ r' (rest r) /\ cap r' = cap r /\ pos r' = 0 /\ (rest r' = [] \/ lim r' = cap r - (len a + 1))).
Proof.
  intros (A1 & A2 & A3 & A4 & _) W Ha Hc. unfold read_line. rewrite A1. rewrite (buffer_line r a []) by easy. cbn [bind set_window pos lim p_len].
  pose proof W as (V0 & V1 & V2 & V3). rewrite len_app, len_cons, len_nil in V2. pose proof (len_pos a).
  rewrite (proj2 (Z.eqb_eq _ _)) by lia. cbn [cap set_window].
  rewrite (proj2 (Z.eqb_neq (cap r) (len a + 1))) by (destruct (Z.eq_dec (pos r) 0) as [E|E]; [specialize (A4 E); lia|lia]).
  set (r0 := set_window (set_window r (pos r + len a + 1) (lim r)) 0 0).
  assert (W0 : window r0 []) by (repeat split; cbn; try lia; apply seg_nil).
  cbv zeta. change (cap r0) with (cap r). destruct (sys_read r0 0 (cap r - (len a + 1))) as [r1 rs] eqn:Er'.
  assert (Er : sys_read r0 (lim r0) (cap r - (len a + 1)) = (r1, rs)) by exact Er'.
  eapply sys_read_window in Er as (bs & -> & Hr & Hbs & Hbn & Hend & Wn & P1 & L1 & C1 & G1 & LL1 & K1 & W1'); [|exact W0|cbn; lia|lia].
  change (rest r0) with (rest r) in Hr.
  assert (D : dat r1 = store (dat r) 0 bs) by (unfold sys_read in Er'; injection Er' as <- _; cbn; now rewrite Hbs).
  cbn in G1, C1.
  assert (T : forall r', dat r' = dat r1 -> gen r' = gen r -> cap r' = cap r -> text_of r' (Ptr (gen r) (pos r) (len a + 1)) = Ok (a ++ [10])).
  { intros r' D' G' C'. apply text_ok; [easy| |lia|rewrite len_app, len_cons, len_nil; lia|rewrite len_app, len_cons, len_nil; lia].
    rewrite D', D. apply seg_store_off; [easy|].
    destruct Hc as [Hc|Hc]; [|right; lia]. rewrite Hc in Hr. symmetry in Hr. apply app_eq_nil in Hr as [-> _]. right. pose proof (@len_nil Z). lia. }
  exists (if len bs <=? 0 then set_last r1 else set_window r1 (pos r1) (len bs)), (Ptr (gen r) (pos r) (len a + 1)). split; [easy|]. split; [apply T; now destruct (len bs <=? 0)|].
  cbn in P1, L1, LL1, K1. destruct (len bs <=? 0) eqn:Eb.
  - apply Z.leb_le in Eb. pose proof (len_pos bs). assert (bs = []) as -> by (apply len_zero; lia). cbn [app] in Hr.
    assert (R1 : rest r1 = []).
    { destruct Hc as [Hc|Hc]; [congruence|]. apply Hend. rewrite len_nil. destruct (Z.eq_dec (pos r) 0) as [E|E]; [specialize (A4 E)|]; lia. }
    left. split; [congruence|]. repeat split; cbn; try congruence; try lia; try now destruct W1' as (? & ? & ? & ?).
  - apply Z.leb_gt in Eb. right. split; [rewrite Hr; intros E; apply app_eq_nil in E as [E _]; unfold len in Eb; rewrite E in Eb; cbn in Eb; lia|].
    repeat split; cbn; try congruence; try lia.
    + exists bs. split; [|easy]. rewrite L1 in Wn. exact Wn.
    + destruct (Z.eq_dec (len bs) (cap r - (len a + 1))); [right; easy|left; apply Hend; lia].
Qed.
(** A line that the buffer does not hold entirely *)
Definition wider (r : reader) : Z :=
  if (lim r - pos r =? lim r) && (0 <? lim r - pos r) && (cap r <=? lim r + 1) then 2 * cap r else cap r.
Lemma line_refill r w : at_ r (w ++ rest r) -> window r w -> ~ In 10 w ->
  (w ++ rest r = [] /\ exists r', read_line r = Ok (r', None) /\ done r') \/
  (w ++ rest r <> [] /\ ~ In 10 (w ++ rest r) /\
     exists r' p, read_line r = Ok (r', Some p) /\ text_of r' p = Ok (w ++ rest r) /\ ended r' /\ window r' (w ++ rest r)) \/
  (exists a b r' p, w ++ rest r = a ++ 10 :: b /\ ~ In 10 a /\ read_line r = Ok (r', Some p) /\
     text_of r' p = Ok (a ++ [10]) /\ at_ r' b /\ fresh r' a (wider r)).
Proof.
  intros (A1 & A2 & A3 & A4 & _) W Hw. unfold read_line. rewrite A1, (buffer_none r w) by easy. cbn [bind].
  pose proof W as (V0 & V1 & V2 & V3). pose proof (len_pos w).
  set (g := negb (len w =? 0) && (pos r =? 0) && (cap r <=? lim r + 1)).
  set (r0 := if g then grow r else r).
  assert (Ew : wider r = cap r0).
  { unfold wider, r0, g. destruct (Z.eqb_spec (len w) 0), (Z.eqb_spec (pos r) 0), (Z.eqb_spec (lim r - pos r) (lim r)), (Z.ltb_spec 0 (lim r - pos r));
      try lia; cbn [negb andb]; try easy. now destruct (cap r <=? lim r + 1). }
  assert (W0 : window r0 w) by (unfold r0; destruct g; [now apply window_grow|easy]).
  assert (P0 : pos r0 = pos r) by (unfold r0; now destruct g). assert (L0 : lim r0 = lim r) by (unfold r0; now destruct g).
  assert (R0 : rest r0 = rest r) by (unfold r0; now destruct g). assert (K0 : keep r0 = true) by (unfold r0; now destruct g).
  assert (LL0 : last_line r0 = false) by (unfold r0; now destruct g).
  assert (C0 : cap r <= cap r0) by (unfold r0; destruct g; cbn [grow cap]; lia).
  rewrite Ew. clearbody r0.
  destruct (0 <? pos r0) eqn:Ep.
  - apply Z.ltb_lt in Ep. rewrite (window_copy r0 w) by easy. cbn [bind].
    set (r1 := set_window _ 0 _).
    assert (W1 : window r1 w).
    { destruct W0 as (U0 & U1 & U2 & U3). repeat split; cbn; try lia. apply seg_store. }
    rewrite <- R0. change (rest r0) with (rest r1). change (cap r0) with (cap r1).
    apply (refill_ok (S (length (rest r1))) r1 w); try easy; cbn; lia.
  - apply Z.ltb_ge in Ep. cbn [bind]. rewrite <- R0.
    apply (refill_ok (S (length (rest r0))) r0 w); try easy; try lia.
Qed.
Lemma grown_ge : forall fuel c n, 1 <= c -> c <= grown fuel c n.
Proof. induction fuel as [|fuel IH]; intros c n Hc; cbn [grown]; [lia|]. destruct (n <=? c); [lia|]. specialize (IH (2 * c) n). lia. Qed.
Lemma wider_ge r : 1 <= cap r -> cap r <= wider r.
Proof. intros H. unfold wider. destruct (_ && _ && _); lia. Qed.

(** ReadLine *)
Lemma read_line_held r s : held r s ->
  (s = [] /\ exists r', read_line r = Ok (r', None) /\ done r') \/
  (s <> [] /\ exists r' p, read_line r = Ok (r', Some p) /\ text_of r' p = Ok (hd [] (lines s)) /\
     (held r' (concat (tl (lines s))) /\ (rest r = [] -> concat (tl (lines s)) <> []) /\
        (rest r = [] \/ (pos r = lim r /\ len s <= cap r) -> rest r' = []) /\ In 10 s
      \/ concat (tl (lines s)) = [] /\ ended r' /\ (In 10 s -> done r'))).
Proof.
  intros [A S]. pose proof A as (A1 & A2 & A3 & A4 & w & W & ->).
  pose proof W as (V0 & V1 & V2 & V3). pose proof (len_pos w).
  destruct (split_line w) as [(a & b & -> & Ha)|Hno].
  - (* the newline is in the buffer *)
    right. split; [now destruct a|].
    assert (Es : (a ++ 10 :: b) ++ rest r = a ++ 10 :: (b ++ rest r)) by now rewrite <- app_assoc.
    rewrite Es in *. rewrite lines_cut by easy. cbn [hd tl]. rewrite concat_lines. rewrite lens_cut in S by easy.
    rewrite len_app, len_cons in V2. pose proof (len_pos a).
    assert (Hin : In 10 (a ++ 10 :: b ++ rest r)) by (apply in_or_app; right; now left).
    destruct b as [|x b].
    + cbn [app] in *. rewrite len_nil in V2. destruct (line_edge r a) as (r' & p & E1 & E2 & E3); try easy.
      { destruct S as [S|S]; [now left|]. cbn [sound] in S. rewrite (proj2 (Z.ltb_ge _ _)), (proj2 (Z.eqb_eq _ _)) in S by lia.
        destruct S as [S|[S _]]; [left; now apply lens_nil|right; easy]. }
      exists r', p. split; [easy|]. split; [easy|]. destruct E3 as [(E3 & E4)|(E3 & E4 & E5 & E6 & E7)].
      * right. split; [easy|]. split; [apply E4|easy].
      * left. split; [|split; [easy|]].
        -- split; [easy|]. destruct E7 as [E7|E7]; [now left|]. destruct S as [S|S]; [easy|].
           cbn [sound] in S. rewrite (proj2 (Z.ltb_ge _ _)), (proj2 (Z.eqb_eq _ _)) in S by lia.
           destruct S as [S|[S S']]; [now apply lens_nil in S|]. right. rewrite E5, E6, E7. now rewrite Z.sub_0_r.
        -- split; [|easy]. intros [Hr|[Hr _]]; [easy|]. lia.
    + destruct (line_inside r a (x :: b)) as (r' & p & E1 & E2 & E3 & E4 & E5 & E6 & E7); try easy.
      exists r', p. split; [easy|]. split; [easy|]. left. rewrite len_cons in V2. pose proof (len_pos b). split; [|split; [easy|]].
      * split; [easy|]. rewrite E4. destruct S as [S|S]; [now left|right]. rewrite E5, E6, E7.
        cbn [sound] in S. rewrite (proj2 (Z.ltb_lt _ _)) in S by lia.
        now replace (lim r - (pos r + (len a + 1))) with (lim r - pos r - (len a + 1)) by lia.
      * split; [|easy]. rewrite E4. intros [Hr|[Hr _]]; [easy|]. lia.
  - destruct (line_refill r w) as [(C1 & C2)|[(C1 & C2 & r' & p & E1 & E2 & E3 & _)|(a & b & r' & p & C1 & C2 & E1 & E2 & E3 & E4)]]; try easy.
    + now left.
    + right. split; [easy|]. exists r', p. rewrite lines_one by easy. cbn. split; [easy|]. split; [easy|]. right. repeat split; try easy; apply E3.
    + right. rewrite C1 in *. split; [now destruct a|]. rewrite lens_cut in S by easy.
      destruct (cut_in a b w (rest r)) as (a' & -> & Hr); [easy|easy|easy|].
      rewrite len_app in *. pose proof (len_pos a').
      exists r', p. rewrite lines_cut by easy. cbn [hd tl]. rewrite concat_lines. split; [easy|]. split; [easy|]. left.
      split; [|split; [|split; [|apply in_or_app; right; now left]]].
      * split; [easy|]. destruct E4 as [E4|(E4 & E5 & E6)]; [now left|right].
        destruct S as [S|S]; [rewrite S in Hr; now destruct a'|].
        cbn [sound] in S. rewrite (proj2 (Z.ltb_ge _ _)), (proj2 (Z.eqb_neq _ _)) in S by lia. fold (wider r) in S.
        rewrite E4, E5, E6. rewrite !len_app in *. exact S.
      * intros Hr0. rewrite Hr0 in Hr. now destruct a'.
      * intros [Hr0|(Hp & Hl)]; [rewrite Hr0 in Hr; now destruct a'|].
        destruct E4 as [E4|(E4 & E5 & E6)]; [easy|].
        destruct E3 as (B1 & B2 & B3 & B4 & w' & (U0 & U1 & U2 & U3) & Hb).
        rewrite Hb in Hl. repeat rewrite ?len_app, ?len_cons in Hl.
        pose proof (grown_ge (Z.to_nat (len (w ++ a') + 1)) (wider r) (len (w ++ a') + 1)) as G. rewrite <- E6 in G. pose proof (wider_ge r A3).
        apply len_zero. pose proof (len_pos (rest r')). rewrite ?len_app in E5. lia.
Qed.

(** ** Whole calls, on bytes *)
Lemma held_at r s : held r s -> at_ r s. Proof. now intros [A _]. Qed.
Definition st (T : Prop) (r : reader) (s : list Z) : Prop := held r s \/ (s = [] /\ ended r /\ (T -> done r)).
Lemma terminated_in s : terminated s -> s <> [] -> In 10 s.
Proof. intros [->|(t & ->)] H; [easy|]. apply in_or_app. right. now left. Qed.
Lemma terminated_tail s : terminated s -> terminated (concat (tl (lines s))).
Proof.
  intros H. destruct (split_line s) as [(a & b & -> & Ha)|Hn].
  - rewrite lines_cut by easy. cbn [tl]. rewrite concat_lines. destruct H as [H|(t & H)]; [now destruct a|].
    destruct b as [|x b] using rev_ind; [now left|]. clear IHb. right. exists b.
    replace (a ++ 10 :: b ++ [x]) with ((a ++ 10 :: b) ++ [x]) in H by now rewrite <- app_assoc.
    apply app_inj_tail in H as [_ ->]. easy.
  - destruct s as [|x s]; [now left|]. now apply terminated_in in H.
Qed.
Lemma ended_line r : ended r -> read_line r = Ok (r, None).
Proof. intros (E & _). unfold read_line. now rewrite E. Qed.
Lemma string_ok T r s : st T r s -> (T -> terminated s) ->
  exists r', read_line_string r = Ok (r', hd [] (lines s)) /\ st T r' (concat (tl (lines s))).
Proof.
  intros [H|(-> & E & D)] HT; unfold read_line_string.
  - destruct (read_line_held r s H) as [(-> & r' & E & D)|(Hs & r' & p & E & Et & C)].
    + exists r'. rewrite E. cbn. split; [easy|]. right. repeat split; try easy; apply D.
    + exists r'. rewrite E. cbn [bind]. rewrite Et. cbn [bind]. split; [easy|].
      destruct C as [(C & _)|(C1 & C2 & C3)]; [now left|right]. split; [easy|]. split; [easy|].
      intros t. apply C3. now apply terminated_in; [apply HT|].
  - exists r. rewrite ended_line by easy. cbn. split; [easy|]. right. easy.
Qed.
Lemma lines_cons s : s <> [] -> lines s = hd [] (lines s) :: lines (concat (tl (lines s))).
Proof.
  intros Hs. destruct (split_line s) as [(a & b & -> & Ha)|Hn].
  - rewrite lines_cut by easy. cbn [hd tl]. now rewrite concat_lines.
  - now rewrite lines_one.
Qed.
Lemma read_lines_ok T : forall fuel r s, st T r s -> (T -> terminated s) -> (length (lines s) < fuel)%nat ->
  exists r', read_lines fuel r = Ok (r', lines s) /\ ended r' /\ (T -> done r').
Proof.
  induction fuel as [|fuel IH]; intros r s H HT Hf; [lia|]. cbn [read_lines].
  destruct H as [H|(-> & E & D)].
  - destruct (read_line_held r s H) as [(-> & r' & E & D)|(Hs & r' & p & E & Et & C)].
    + exists r'. rewrite E. cbn. split; [easy|]. split; [apply D|easy].
    + rewrite E. cbn [bind]. rewrite Et. cbn [bind].
      destruct (IH r' (concat (tl (lines s)))) as (r2 & E2 & S2).
      * destruct C as [(C & _)|(C1 & C2 & C3)]; [now left|right]. split; [easy|]. split; [easy|].
        intros t. apply C3. now apply terminated_in; [apply HT|].
      * intros t. now apply terminated_tail, HT.
      * rewrite (lines_cons s Hs) in Hf. cbn in Hf. lia.
      * exists r2. rewrite E2. cbn [bind]. rewrite <- lines_cons by easy. easy.
  - exists r. rewrite ended_line by easy. cbn. easy.
Qed.
(** The for loop: at most one empty line too many *)
Lemma each_ok : forall fuel r s, st True r s \/ st False r s -> (S (length (lines s)) < fuel)%nat ->
  exists r' l, each fuel r = Ok (r', l) /\ (l = lines s \/ l = lines s ++ [[]]) /\ ended r'.
Proof.
  induction fuel as [|fuel IH]; intros r s H Hf; [lia|]. cbn [each].
  assert (H' : st False r s) by (destruct H as [[H|(? & ? & ?)]|H]; [now left|now right|easy]). clear H.
  destruct (last_line r) eqn:EL.
  - destruct H' as [[(A & _) _]|(-> & E & _)]; [congruence|]. exists r, []. split; [easy|]. split; [now left|easy].
  - destruct (string_ok False r s) as (r1 & E1 & S1); [easy|easy|]. rewrite E1. cbn [bind].
    destruct s as [|x s].
    + destruct H' as [H|(_ & E & _)]; [|destruct E; congruence].
      destruct (read_line_held r [] H) as [(_ & r2 & E2 & D2)|(Hs & _)]; [|easy].
      assert (r2 = r1) as ->. { unfold read_line_string in E1. rewrite E2 in E1. cbn in E1. now injection E1. }
      destruct fuel as [|fuel]; [cbn in Hf; lia|]. cbn [each]. destruct D2 as [D2 D3]. rewrite (proj1 D2). cbn.
      exists r1, [[]]. split; [easy|]. split; [now right|easy].
    + destruct (IH r1 (concat (tl (lines (x :: s))))) as (r2 & l & E2 & El & D2).
      * now right.
      * rewrite (lines_cons (x :: s)) in Hf by easy. cbn [length] in Hf. lia.
      * rewrite E2. cbn [bind]. exists r2. eexists. split; [reflexivity|]. split; [|easy].
        rewrite (lines_cons (x :: s)) by easy. destruct El as [->| ->]; [now left|now right].
Qed.

(** Read() of the rest *)
Lemma read_all_ok : forall fuel r, window r [] -> pos r = 0 -> keep r = true -> 1 <= cap r -> (length (rest r) < fuel)%nat ->
  exists r', read_all fuel r = Ok (r', rest r) /\ done r'.
Proof.
  induction fuel as [|fuel IH]; intros r W Hp Hk Hc Hf; [lia|]. cbn [read_all].
  pose proof W as (W0 & W1 & W2 & W3). rewrite len_nil in W2.
  destruct (sys_read r 0 (cap r)) as [r1 rs] eqn:Er'.
  assert (Er : sys_read r (lim r) (cap r) = (r1, rs)) by (replace (lim r) with 0 by lia; exact Er').
  eapply sys_read_window in Er as (bs & -> & Hr & Hbs & Hbn & Hend & Wn & P1 & L1 & C1 & G1 & LL1 & K1 & W1'); [|exact W|lia|lia].
  destruct (len bs <=? 0) eqn:Eb.
  - apply Z.leb_le in Eb. pose proof (len_pos bs). assert (bs = []) as -> by (apply len_zero; lia). cbn [app] in Hr.
    assert (R1 : rest r1 = []) by (apply Hend; rewrite len_nil; lia).
    exists (set_last r1). rewrite Hr, R1. split; [easy|]. repeat split; cbn; try congruence; try lia; apply W1'.
  - apply Z.leb_gt in Eb. destruct Wn as (U0 & U1 & U2 & U3). cbn in U0, U1, U2, U3.
    rewrite (seg_copy r1 0 bs); [|now replace 0 with (pos r1) by lia|lia|lia|easy]. cbn [bind].
    destruct (IH r1) as (r2 & E2 & D2); [easy|lia|congruence|lia| |].
    { assert (length (rest r) = length bs + length (rest r1))%nat by (rewrite Hr, app_length; easy). unfold len in *. lia. }
    exists r2. rewrite E2. cbn [bind]. rewrite Hr. easy.
Qed.
Lemma read_rest_ok (T : Prop) r s n : T -> st T r s -> n < 0 -> exists r', read_bytes r n = Ok (r', s) /\ done r'.
Proof.
  intros t H Hn. unfold read_bytes. rewrite (proj2 (Z.ltb_lt n 0)) by lia.
  assert (G : exists w, window r w /\ s = w ++ rest r /\ keep r = true /\ 1 <= cap r).
  { destruct H as [[(A1 & A2 & A3 & A4 & w & W & E) _]|(-> & E & D)]; [now exists w|]. destruct (D t) as [(D1 & D2 & D3 & D4) W].
    exists []. now rewrite D4. }
  destruct G as (w & W & E & Hk & Hc). rewrite (window_copy r w W). cbn [bind].
  destruct (read_all_ok (S (length (rest r))) (set_window r 0 0)) as (r' & E' & D'); try easy.
  { repeat split; cbn; try lia. apply seg_nil. }
  { cbn. lia. }
  exists r'. rewrite E'. cbn [bind set_window rest]. rewrite E. easy.
Qed.

(** ** A file that fits into the buffer *)
Definition near (r : reader) (s : list Z) : Prop := rest r = [] \/ (pos r = lim r /\ len s <= cap r).
Lemma small_held r s : at_ r s -> rest r = [] -> held r s. Proof. intros A H. split; [easy|now left]. Qed.
(** The lines of a content that the buffer takes do no harm *)
Lemma near_sound c : forall l limit room, (forall n, In n l -> 0 < n) -> fold_right Z.add 0 l <= room -> sound c limit room l.
Proof.
  induction l as [|n l IH]; intros limit room Hp Hs; cbn [sound fold_right] in *; [easy|].
  assert (Hn : 0 < n) by (apply Hp; now left).
  assert (G : 0 <= fold_right Z.add 0 l).
  { assert (Hp' : forall m, In m l -> 0 < m) by (intros m Hm; apply Hp; now right). clear -Hp'.
    induction l as [|m l IH]; cbn; [lia|]. assert (0 < m) by (apply Hp'; now left). specialize (IH (fun k Hk => Hp' k (or_intror Hk))). lia. }
  destruct (n <? room) eqn:E.
  - apply Z.ltb_lt in E. apply IH; [intros m Hm; apply Hp; now right|lia].
  - apply Z.ltb_ge in E. rewrite (proj2 (Z.eqb_eq n room)) by lia. left.
    destruct l as [|m l]; [easy|]. exfalso. cbn [fold_right] in *. assert (0 < m) by (apply Hp; right; now left).
    assert (0 <= fold_right Z.add 0 l).
    { assert (Hp' : forall m, In m l -> 0 < m) by (intros k Hk; apply Hp; right; now right). clear -Hp'.
      induction l as [|k l IH]; cbn; [lia|]. assert (0 < k) by (apply Hp'; now left). specialize (IH (fun j Hj => Hp' j (or_intror Hj))). lia. }
    lia.
Qed.
Lemma lines_ne : forall s l, In l (lines s) -> l <> [].
Proof.
  induction s as [|c s IH]; intros l H; [easy|]. cbn [lines] in H. destruct (c =? 10); [destruct H as [<-|H]; [easy|now apply IH]|].
  destruct (lines s) as [|x ls]; destruct H as [<-|H]; try easy. apply IH. now right.
Qed.
Lemma lens_pos s n : In n (line_lengths s) -> 0 < n.
Proof. unfold line_lengths. intros H. apply in_map_iff in H as (l & <- & H). apply lines_ne in H. destruct l; [easy|cbn; lia]. Qed.
Lemma lens_sum s : fold_right Z.add 0 (line_lengths s) = len s.
Proof.
  unfold line_lengths. rewrite <- (concat_lines s) at 2. induction (lines s) as [|l ls IH]; [easy|]. cbn [map fold_right concat]. rewrite IH, len_app. easy.
Qed.
Lemma small_sound c s : 1 <= c -> len s <= c -> sound c 0 0 (line_lengths s).
Proof.
  intros Hc Hs. pose proof (lens_pos s) as Hp. pose proof (lens_sum s) as Hl.
  destruct (line_lengths s) as [|n l]; [easy|]. cbn [sound].
  assert (Hn : 0 < n) by (apply Hp; now left).
  assert (G : 0 <= fold_right Z.add 0 l).
  { assert (Hp' : forall m, In m l -> 0 < m) by (intros m Hm; apply Hp; now right). clear -Hp'.
    induction l as [|m l IH]; cbn; [lia|]. assert (0 < m) by (apply Hp'; now left). specialize (IH (fun k Hk => Hp' k (or_intror Hk))). lia. }
  cbn [fold_right] in Hl.
  rewrite (proj2 (Z.ltb_ge n 0)), (proj2 (Z.eqb_neq n 0)) by lia. cbn [Z.eqb Z.ltb Z.compare andb].
  rewrite grown_fits by lia. apply near_sound; [intros m Hm; apply Hp; now right|lia].
Qed.

(** Read(n) of such a file *)
Lemma near_read_full r w fuel size remaining : window r w -> rest r = [] -> keep r = true -> 1 <= cap r -> 0 < remaining -> len w <= remaining ->
  (1 < fuel)%nat -> exists r', read_some fuel r size remaining = Ok (r', w) /\ done r'.
Proof.
  intros W Hr Hk Hc H0 Hw Hf. destruct fuel as [|[|fuel]]; [lia|lia|]. pose proof W as (W0 & W1 & W2 & W3).
  cbn [read_some]. rewrite (proj2 (Z.leb_gt remaining 0)), (proj2 (Z.ltb_ge _ _)) by lia. rewrite (window_copy r w W). cbn [bind set_window last_line].
  destruct (last_line r) eqn:EL.
  - eexists. split; [reflexivity|]. repeat split; cbn; try easy; try lia.
  - unfold sys_read. cbn [rest set_window]. rewrite Hr, firstn_nil, skipn_nil. cbn [len length Z.of_nat Z.leb Z.compare set_last set_window pos lim last_line].
    change (len (@nil Z) <=? 0) with true. cbv iota. cbn [set_last pos lim last_line set_window].
    destruct (remaining - (lim r - pos r) <=? 0) eqn:E.
    + cbn [bind]. rewrite app_nil_r. eexists. split; [reflexivity|]. repeat split; cbn; try easy; try lia.
    + apply Z.leb_gt in E. rewrite (proj2 (Z.ltb_ge _ _)) by lia.
      unfold copy. cbn [Z.sub Z.add Z.opp Z.to_nat bytes_at bind]. rewrite app_nil_r. eexists. split; [reflexivity|]. repeat split; cbn; try easy; try lia.
Qed.
Lemma near_read_part r w fuel size : window r w -> keep r = true -> 1 <= cap r -> last_line r = false -> 0 < size -> size < len w -> (0 < fuel)%nat ->
  exists r', read_some fuel r size size = Ok (r', firstn (Z.to_nat size) w) /\ at_ r' (skipn (Z.to_nat size) w ++ rest r) /\ rest r' = rest r /\ cap r' = cap r.
Proof.
  intros W Hk Hc HL H0 Hw Hf. destruct fuel as [|fuel]; [lia|]. pose proof W as (W0 & W1 & W2 & W3).
  cbn [read_some]. rewrite (proj2 (Z.leb_gt size 0)), (proj2 (Z.ltb_lt _ _)) by lia.
  set (a := firstn (Z.to_nat size) w). set (b := skipn (Z.to_nat size) w).
  assert (E : w = a ++ b) by (unfold a, b; now rewrite firstn_skipn). assert (La : len a = size) by (unfold a, len in *; rewrite firstn_length; lia).
  rewrite E in W2, W3. rewrite len_app in W2. apply seg_app in W3 as [W3 W4]. pose proof (len_pos b).
  rewrite (seg_copy r (pos r) a size) by (easy || lia). cbn [bind]. eexists. split; [reflexivity|]. split; [|easy].
  repeat split; cbn; try easy; try lia. exists b. split; [|easy]. repeat split; cbn; try lia. now rewrite <- La.
Qed.
(** The state after: part of a full buffer, or the end *)
Definition sm (r : reader) (s : list Z) : Prop := (at_ r s /\ near r s) \/ (s = [] /\ done r).
Lemma near_read r s n : sm r s -> 0 <= n -> exists r', read_bytes r n = Ok (r', firstn (Z.to_nat n) s) /\
  (n = 0 /\ r' = r \/ n < len s /\ at_ r' (skipn (Z.to_nat n) s) /\ rest r' = [] \/ 0 < n /\ len s <= n /\ done r').
Proof.
  intros H Hn. unfold read_bytes. rewrite (proj2 (Z.ltb_ge n 0)) by lia.
  destruct (Z.eq_dec n 0) as [->|Hz]. { exists r. cbn. split; [easy|now left]. }
  destruct H as [[(A1 & A2 & A3 & A4 & w & W & ->) N]|(-> & (D1 & D2 & D3 & D4) & W)].
  - destruct N as [N|[N1 N2]].
    + rewrite N. rewrite app_nil_r. destruct (Z_lt_le_dec n (len w)) as [Hl|Hl].
      * destruct (near_read_part r w (S (S (S (length (@nil Z))))) n) as (r' & E & A & R & _); try easy; try lia.
        rewrite N, app_nil_r in A. rewrite N in R. exists r'. split; [exact E|]. right. now left.
      * destruct (near_read_full r w (S (S (S (length (@nil Z))))) n n) as (r' & E & D); try easy; try lia.
        exists r'. rewrite firstn_all2 by (unfold len in Hl; lia). split; [exact E|]. right. right. repeat split; try lia; apply D.
    + pose proof W as (W0 & W1 & W2 & W3). assert (w = []) as -> by (apply len_zero; lia). cbn [app] in *.
      set (fuel := S (S (length (rest r)))). assert (Hfu : (1 < fuel)%nat) by (unfold fuel; lia). clearbody fuel. cbn [read_some]. rewrite (proj2 (Z.leb_gt n 0)), (proj2 (Z.ltb_ge _ _)) by lia.
      rewrite (window_copy r [] W). cbn [bind set_window last_line]. rewrite A1.
      set (r0 := set_window r 0 0). assert (V : window r0 []) by (repeat split; cbn; try lia; apply seg_nil).
      change (cap r0) with (cap r). destruct (sys_read r0 0 (cap r)) as [r1 rs] eqn:Er'.
      assert (Er : sys_read r0 (lim r0) (cap r) = (r1, rs)) by exact Er'.
      eapply sys_read_window in Er as (bs & -> & Hr & Hbs & Hbn & Hend & Wn & P1 & L1 & C1 & G1 & LL1 & K1 & W1'); [|exact V|cbn; lia|lia].
      cbn [r0 set_window rest pos lim cap last_line keep] in *.
      assert (Ebs : bs = rest r) by (rewrite Hbs; apply firstn_all2; unfold len in N2; lia).
      assert (R1 : rest r1 = []).
      { rewrite Ebs in Hr. rewrite <- (app_nil_r (rest r)) in Hr at 1. now apply app_inv_head in Hr. }
      rewrite Ebs in *. clear Ebs bs.
      replace (n - (lim r - pos r)) with n by lia.
      destruct (len (rest r) <=? 0) eqn:Eb.
      * apply Z.leb_le in Eb. pose proof (len_pos (rest r)). assert (Er0 : rest r = []) by (apply len_zero; lia).
        assert (exists r', read_some fuel (set_last r1) n n = Ok (r', []) /\ done r') as (r' & E & D) by (apply near_read_full; try easy; cbn; try congruence; lia).
        rewrite E. cbn [bind app]. exists r'. rewrite Er0, firstn_nil. split; [easy|]. right. right. pose proof (@len_nil Z). repeat split; try lia; apply D.
      * apply Z.leb_gt in Eb. assert (W9 : window (set_window r1 (pos r1) (len (rest r))) (rest r)) by (rewrite L1 in Wn; exact Wn).
        destruct (Z_lt_le_dec n (len (rest r))) as [Hl|Hl].
        -- pose proof (near_read_part (set_window r1 (pos r1) (len (rest r))) (rest r) fuel n) as (r' & E & A & R & _); [easy|cbn; congruence|cbn; lia|cbn; congruence|lia|lia|lia|].
           cbn in A, R. rewrite R1, app_nil_r in A. rewrite E. cbn [bind app]. exists r'. split; [easy|]. right. left. rewrite R, R1. easy.
        -- pose proof (near_read_full (set_window r1 (pos r1) (len (rest r))) (rest r) fuel n n) as (r' & E & D); [easy|cbn; congruence|cbn; congruence|cbn; lia|lia|lia|lia|].
           rewrite E. cbn [bind app]. exists r'. rewrite firstn_all2 by (unfold len in Hl; lia). split; [easy|]. right. right. repeat split; try lia; apply D.
  - cbn [length]. destruct (near_read_full r [] (S (S (S (length (rest r))))) n n) as (r' & E & D); try easy; try lia.
    exists r'. rewrite firstn_nil. split; [exact E|]. right. right. pose proof (@len_nil Z). repeat split; try lia; apply D.
Qed.

(** After bytes were taken from such a file *)
Definition sm2 (r : reader) (s : list Z) : Prop := (at_ r s /\ rest r = [] /\ s <> []) \/ (s = [] /\ done r).
Lemma sm2_sm r s : sm2 r s -> sm r s.
Proof. intros [(A & B & _)|B]; [left; split; [easy|now left]|now right]. Qed.
Lemma near_take r s n : sm r s -> 0 < n -> exists r', read_bytes r n = Ok (r', firstn (Z.to_nat n) s) /\ sm2 r' (skipn (Z.to_nat n) s).
Proof.
  intros H Hn. destruct (near_read r s n H) as (r' & E & C); [lia|]. exists r'. split; [easy|].
  destruct C as [(C & _)|[(C1 & C2 & C3)|(C1 & C2 & C3)]]; [lia| |].
  - left. split; [easy|]. split; [easy|]. intros Z0. apply (f_equal (@length Z)) in Z0. rewrite skipn_length in Z0. cbn in Z0. unfold len in C1. lia.
  - right. split; [apply skipn_all2; unfold len in C2; lia|easy].
Qed.
Lemma sm2_last r s : sm2 r s -> last_line r = true -> s = [].
Proof. intros [((A & _) & _)|(-> & _)] H; [congruence|easy]. Qed.
Lemma sm2_more r s : sm2 r s -> last_line r = false -> s <> [].
Proof. intros [(_ & _ & A)|(-> & (D & _) & _)] H; [easy|congruence]. Qed.

(** ** Characters *)
Definition sc (c : Z) : Prop := 0 <= c < 55296 \/ 57344 <= c < 1114112.
Lemma sc_scalar c : sc c -> scalar c. Proof. unfold sc, scalar. lia. Qed.
Local Ltac Zify.zify_post_hook ::= Z.div_mod_to_equations.
Lemma utf8_greedy c : sc c -> greedy_encode_one c = utf8 c.
Proof.
  unfold sc. intros H. rewrite encode_one_arith by lia. unfold enc_arith, utf8. destruct (Z.ltb_spec c 128); [reflexivity|].
  destruct (Z.leb_spec c 2047), (Z.ltb_spec c 2048); try lia; [reflexivity|]. destruct (Z.leb_spec c 65535), (Z.ltb_spec c 65536); try lia; [reflexivity|]. destruct (Z.leb_spec c 1114111); [reflexivity|lia].
Qed.
Lemma decode_utf8 cs : Forall sc cs -> utf8_decode (flat_map utf8 cs) = Ok cs.
Proof.
  intros H. replace (flat_map utf8 cs) with (greedy_encode cs).
  - apply utf8_decode_wf, greedy_encode_wf. eapply Forall_impl; [|exact H]. exact sc_scalar.
  - induction H as [|c cs Hc H IH]; [easy|]. cbn. now rewrite utf8_greedy, IH.
Qed.
Lemma utf8_newline c : sc c -> In 10 (utf8 c) -> c = 10.
Proof.
  unfold sc, utf8. intros H Hi. destruct (Z.ltb_spec c 128); [|destruct (Z.ltb_spec c 2048); [|destruct (Z.ltb_spec c 65536)]]; cbn [In] in Hi; lia.
Qed.
Lemma utf8_ne c : 1 <= len (utf8 c).
Proof. unfold utf8. destruct (c <? 128); [|destruct (c <? 2048); [|destruct (c <? 65536)]]; unfold len; cbn; lia. Qed.
Lemma lead_len b : 192 <= b < 248 -> one_len b = if b <? 224 then 2 else if b <? 240 then 3 else 4.
Proof.
  assert (H : forallb (fun n => let b := 192 + Z.of_nat n in one_len b =? (if b <? 224 then 2 else if b <? 240 then 3 else 4)) (seq 0 56) = true) by (vm_compute; reflexivity).
  intros Hb. rewrite forallb_forall in H. specialize (H (Z.to_nat (b - 192))). cbv zeta in H.
  replace (192 + Z.of_nat (Z.to_nat (b - 192))) with b in H by lia. apply Z.eqb_eq, H, in_seq. lia.
Qed.
Lemma utf8_lead c : sc c -> exists b l, utf8 c = b :: l /\ one_len b = len (utf8 c).
Proof.
  unfold sc, utf8. intros H.
  destruct (Z.ltb_spec c 128); [|destruct (Z.ltb_spec c 2048); [|destruct (Z.ltb_spec c 65536)]]; eexists; eexists; (split; [reflexivity|]).
  - unfold one_len. rewrite (proj2 (Z.ltb_lt c 128)) by lia. easy.
  - rewrite lead_len by lia. rewrite (proj2 (Z.ltb_lt _ 224)) by lia. easy.
  - rewrite lead_len by lia. rewrite (proj2 (Z.ltb_ge _ 224)), (proj2 (Z.ltb_lt _ 240)) by lia. easy.
  - rewrite lead_len by lia. rewrite (proj2 (Z.ltb_ge _ 224)), (proj2 (Z.ltb_ge _ 240)) by lia. easy.
Qed.
Local Ltac Zify.zify_post_hook ::= idtac.
Definition enc (cs : list Z) : list Z := flat_map utf8 cs.
Lemma enc_app a b : enc (a ++ b) = enc a ++ enc b. Proof. apply flat_map_app. Qed.
Lemma enc_len cs : len cs <= len (enc cs).
Proof. induction cs as [|c cs IH]; [easy|]. change (enc (c :: cs)) with (utf8 c ++ enc cs). rewrite len_cons, len_app. pose proof (utf8_ne c). lia. Qed.

(** The characters that begin in the first m bytes *)
Lemma count_ok : forall cs m fuel counts size, Forall sc cs -> (m <= length (enc cs))%nat -> (m <= fuel)%nat ->
  exists j limit size', count_chars fuel (firstn m (enc cs)) (Z.of_nat m) counts size = (counts + Z.of_nat j, limit, size') /\ (j <= length cs)%nat /\ (j <= m)%nat /\
    let more := if 0 <? limit then size' - limit else 0 in
    0 <= more /\ (m + Z.to_nat more = length (enc (firstn j cs)))%nat.
Proof.
  induction cs as [|c cs IH]; intros m fuel counts size Hcs Hm Hf.
  - cbn in Hm. assert (m = O) as -> by lia. exists O, 0, size. split; [destruct fuel; cbn; f_equal; f_equal; lia|]. cbn. lia.
  - inversion Hcs as [|? ? Hc Hcs']; subst. destruct (utf8_lead c Hc) as (b & l & Eb & El).
    change (enc (c :: cs)) with (utf8 c ++ enc cs) in *. rewrite app_length in Hm.
    destruct m as [|m].
    + exists O, 0, size. split; [destruct fuel; cbn; f_equal; f_equal; lia|]. cbn. lia.
    + destruct fuel as [|fuel]; [lia|]. cbn [count_chars]. rewrite (proj2 (Z.leb_gt (Z.of_nat (S m)) 0)) by lia.
      replace (hd 0 (firstn (S m) (utf8 c ++ enc cs))) with b by (rewrite Eb; easy). rewrite El.
      destruct (Z.ltb_spec (Z.of_nat (S m)) (len (utf8 c))) as [L|L].
      * exists 1%nat, (Z.of_nat (S m)), (len (utf8 c)). split; [easy|]. cbn [length firstn]. rewrite (proj2 (Z.ltb_lt 0 _)) by lia.
        change (enc [c]) with (utf8 c ++ []). rewrite app_nil_r. unfold len in *. cbv zeta. lia.
      * set (k := length (utf8 c)) in *. assert (Hk : len (utf8 c) = Z.of_nat k) by easy. rewrite Hk in *. pose proof (utf8_ne c) as Hk1. rewrite Hk in Hk1.
        rewrite Nat2Z.id. replace (skipn k (firstn (S m) (utf8 c ++ enc cs))) with (firstn (S m - k) (enc cs)).
        2:{ rewrite firstn_app. fold k. rewrite (firstn_all2 (utf8 c)) by (fold k; lia). rewrite skipn_app. unfold k at 2 3. rewrite skipn_all, Nat.sub_diag. easy. }
        destruct (IH (S m - k)%nat fuel (counts + 1) (Z.of_nat k) Hcs') as (j & limit & size' & E & J1 & J2 & J3); [lia|lia|].
        replace (Z.of_nat (S m) - Z.of_nat k) with (Z.of_nat (S m - k)) by lia. rewrite E.
        exists (S j), limit, size'. split; [f_equal; f_equal; lia|]. split; [cbn [length]; lia|]. split; [lia|].
        cbv zeta in *. destruct J3 as [J3 J4]. split; [easy|]. cbn [firstn]. change (enc (c :: firstn j cs)) with (utf8 c ++ enc (firstn j cs)).
        rewrite app_length. fold k. lia.
Qed.
