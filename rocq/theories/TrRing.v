(** Rings linked in both directions, and labels under exclusive or. *)
From Verif Require Import Base ListAux.
From Coq Require Import Permutation.
Local Open Scope Z_scope.

Fixpoint chain (nx pv : Z -> Z) (a : Z) (l : list Z) (z : Z) : Prop :=
  match l with
  | [] => nx a = z /\ pv z = a
  | b :: l => nx a = b /\ pv b = a /\ chain nx pv b l z
  end.
Definition ring (nx pv : Z -> Z) (l : list Z) : Prop :=
  NoDup l /\ match l with [] => True | a :: l' => chain nx pv a l' a end.

Lemma chain_app nx pv l1 : forall a b l2 z,
  chain nx pv a (l1 ++ b :: l2) z <-> chain nx pv a l1 b /\ chain nx pv b l2 z.
Proof. induction l1 as [|x l1 IH]; intros; cbn; [tauto|]. rewrite IH. tauto. Qed.
Lemma chain_ext nx pv nx' pv' l : forall a z,
  (forall x, In x (a :: l) -> nx' x = nx x) -> (forall x, In x (l ++ [z]) -> pv' x = pv x) ->
  chain nx pv a l z -> chain nx' pv' a l z.
Proof.
  induction l as [|b l IH]; intros a z Hn Hp; cbn.
  - intros [A B]. rewrite Hn, Hp by (now left). easy.
  - intros (A & B & C). rewrite Hn, (Hp b) by (now left). split; [easy|]. split; [easy|]. apply IH; [| |easy].
    + intros x I. apply Hn. now right.
    + intros x I. apply Hp. now right.
Qed.
Lemma ring_ext nx pv nx' pv' l :
  (forall x, In x l -> nx' x = nx x) -> (forall x, In x l -> pv' x = pv x) -> ring nx pv l -> ring nx' pv' l.
Proof.
  intros Hn Hp [N C]. split; [easy|]. destruct l as [|a l]; [easy|]. eapply chain_ext; [exact Hn| |exact C].
  intros x I. apply Hp. rewrite in_app_iff in I. cbn in *. tauto.
Qed.
Lemma NoDup_swap {A} (l1 l2 : list A) : NoDup (l1 ++ l2) -> NoDup (l2 ++ l1).
Proof. intros H. eapply Permutation_NoDup; [apply Permutation_app_comm|easy]. Qed.
Lemma ring_rotate nx pv l1 l2 : ring nx pv (l1 ++ l2) -> ring nx pv (l2 ++ l1).
Proof.
  intros [N C]. split; [now apply NoDup_swap|]. destruct l1 as [|a l1], l2 as [|b l2]; cbn in *; rewrite ?app_nil_r in *; try easy.
  rewrite chain_app in *. tauto.
Qed.
Lemma chain_next nx pv a l z : chain nx pv a l z -> nx a = match l with [] => z | b :: _ => b end.
Proof. destruct l; cbn; tauto. Qed.
Lemma chain_prev nx pv a l z : chain nx pv a l z -> pv z = last l a.
Proof.
  revert a. induction l as [|b l IH]; intros a; cbn [chain]; [cbn; tauto|]. intros (_ & _ & H). apply IH in H. rewrite H.
  destruct l as [|c l]; [easy|]. clear. cbn [last]. revert c. induction l as [|d l IH]; intros c; [easy|]. exact (IH d).
Qed.
Lemma ring_next_in nx pv l x : ring nx pv l -> In x l -> In (nx x) l.
Proof.
  intros R I. apply in_split in I as (l1 & l2 & ->). apply ring_rotate in R. destruct R as [_ C]. cbn in C. apply chain_next in C. rewrite C.
  destruct (l2 ++ l1) as [|b l] eqn:E.
  - apply in_app_iff. right. now left.
  - assert (I : In b (l2 ++ l1)) by (rewrite E; now left). rewrite in_app_iff in *. cbn. tauto.
Qed.
Lemma last_in {A} (l : list A) d : l <> [] -> In (last l d) l.
Proof. induction l as [|a l IH]; intros H; [easy|]. destruct l as [|b l]; [now left|]. right. apply IH. easy. Qed.
Lemma ring_prev_in nx pv l x : ring nx pv l -> In x l -> In (pv x) l.
Proof.
  intros R I. apply in_split in I as (l1 & l2 & ->). apply ring_rotate in R. destruct R as [_ C]. cbn in C. apply chain_prev in C. rewrite C.
  destruct (l2 ++ l1) as [|b l] eqn:E.
  - apply in_app_iff. right. now left.
  - assert (I : In (last (b :: l) x) (l2 ++ l1)) by (rewrite E; now apply last_in). rewrite in_app_iff in *. cbn. tauto.
Qed.
Lemma ring_alone nx pv l x : ring nx pv l -> In x l -> nx x = x -> l = [x].
Proof.
  intros R I E. apply in_split in I as (l1 & l2 & ->). apply ring_rotate in R. destruct R as [N C]. cbn in C. apply chain_next in C. rewrite E in C.
  destruct (l2 ++ l1) as [|b l] eqn:F.
  - destruct l1, l2; easy.
  - subst b. cbn in N. rewrite F in N. inversion N as [|? ? H]; subst. elim H. now left.
Qed.
Lemma ring_self nx pv x : ring nx pv [x] -> nx x = x.
Proof. intros [_ C]. apply C. Qed.
Lemma ring_head nx pv l x : ring nx pv l -> In x l -> exists l', ring nx pv (x :: l') /\ (forall y, In y l <-> In y (x :: l')) /\ length l = length (x :: l').
Proof.
  intros R I. apply in_split in I as (l1 & l2 & ->). exists (l2 ++ l1). split; [now apply ring_rotate in R|].
  split; [intros y; cbn; rewrite !in_app_iff; cbn; tauto|]. cbn. rewrite !app_length. cbn. lia.
Qed.

(** Taking an element out. *)
Lemma ring_remove nx pv nx' pv' e l : ring nx pv (e :: l) -> l <> [] ->
  nx' (pv e) = nx e -> pv' (nx e) = pv e ->
  (forall x, In x l -> x <> pv e -> nx' x = nx x) -> (forall x, In x l -> x <> nx e -> pv' x = pv x) -> ring nx' pv' l.
Proof.
  intros R L Hn Hp Fn Fp. assert (N : NoDup (e :: l)) by apply R. split; [now inversion N|]. destruct l as [|b l]; [easy|].
  change (e :: b :: l) with ([e] ++ (b :: l)) in R. apply ring_rotate in R. destruct R as [_ C]. cbn in C.
  destruct (list_eq_dec Z.eq_dec l []) as [->|NE].
  - cbn in C. destruct C as (A & B & C & D). rewrite B, C in *. cbn. easy.
  - destruct (exists_last NE) as (l' & y & ->). rewrite <- app_assoc in C. cbn [app] in C. apply chain_app in C as [C1 C2].
    cbn in C2. destruct C2 as (A & B & C & D). rewrite B, C in *. apply chain_app. split; [|cbn; easy].
    apply NoDup_cons_iff in N as [Ne Nb]. apply NoDup_cons_iff in Nb as [Nb' Nl].
    assert (Ny : ~ In y l') by (intros I; apply (NoDup_remove_2 _ _ _ Nl); rewrite app_nil_r; easy).
    eapply chain_ext; [| |exact C1].
    + intros x [E0|I]; [rewrite <- E0|].
      * apply Fn; [now left|]. intros E1; rewrite E1 in Nb'. apply Nb'. rewrite in_app_iff. right. now left.
      * apply Fn; [right; rewrite in_app_iff; now left|]. intros E1; rewrite E1 in *. easy.
    + intros x I. apply Fp; [now right|]. intros E1; rewrite E1 in *. easy.
Qed.
(** Putting an element after the first one, or before it. *)
Lemma ring_insert_after nx pv nx' pv' h e l : ring nx pv (h :: l) -> ~ In e (h :: l) ->
  nx' h = e -> nx' e = nx h -> pv' (nx h) = e -> pv' e = h ->
  (forall x, In x (h :: l) -> x <> h -> nx' x = nx x) -> (forall x, In x (h :: l) -> x <> nx h -> pv' x = pv x) -> ring nx' pv' (h :: e :: l).
Proof.
  intros [N C] E A B D F Fn Fp. apply NoDup_cons_iff in N as [Nh Nl]. split.
  - constructor; [|constructor; [|easy]]; cbn in *; [intros [->|I]; tauto|tauto].
  - cbn. split; [easy|]. split; [easy|]. destruct l as [|b l].
    + cbn in *. destruct C as [C1 C2]. now rewrite C1 in *.
    + cbn in *. destruct C as (C1 & C2 & C3). rewrite C1 in *. split; [easy|]. split; [easy|].
      inversion Nl as [|? ? Nb Nl']; subst. eapply chain_ext; [| |exact C3].
      * intros x [<-|I]; apply Fn; auto; intros ->; tauto.
      * intros x I. rewrite in_app_iff in I. apply Fp; [cbn in I; tauto|]. intros ->. cbn in I. destruct I as [I|[I|[]]]; [subst; tauto|]. apply Nh. left. congruence.
Qed.
Lemma ring_insert_before nx pv nx' pv' h e l : ring nx pv (h :: l) -> ~ In e (h :: l) ->
  pv' h = e -> pv' e = pv h -> nx' (pv h) = e -> nx' e = h ->
  (forall x, In x (h :: l) -> x <> pv h -> nx' x = nx x) -> (forall x, In x (h :: l) -> x <> h -> pv' x = pv x) -> ring nx' pv' (e :: h :: l).
Proof.
  intros [N C] E A B D F Fn Fp. split; [now constructor|]. cbn. split; [easy|]. split; [easy|].
  destruct (list_eq_dec Z.eq_dec l []) as [->|NE].
  - cbn in *. destruct C as [C1 C2]. now rewrite C2 in *.
  - destruct (exists_last NE) as (l' & y & ->). apply chain_app in C as [C1 C2]. cbn in C2. destruct C2 as [C2 C3]. rewrite C3 in *.
    apply chain_app. split; [|cbn; easy]. apply NoDup_cons_iff in N as [Nh Nl].
    assert (Ny : ~ In y l') by (intros I; apply (NoDup_remove_2 _ _ _ Nl); rewrite app_nil_r; easy).
    assert (NH : ~ In h (l' ++ [y])) by easy.
    eapply chain_ext; [| |exact C1].
    + intros x [E0|I]; [rewrite <- E0|].
      * apply Fn; [now left|]. intros E1; rewrite E1 in NH. apply NH. rewrite in_app_iff. right. now left.
      * apply Fn; [right; rewrite in_app_iff; now left|]. intros E1; rewrite E1 in *. easy.
    + intros x I. apply Fp; [now right|]. intros E1; rewrite E1 in *. easy.
Qed.
Lemma ring_single nx pv x : nx x = x -> pv x = x -> ring nx pv [x].
Proof. intros A B. split; [constructor; [easy|constructor]|easy]. Qed.

(** ** Exclusive or with a label stays in the block of 256 cells *)
Lemma lxor_split b c : 0 <= b -> 0 <= c < 256 -> Z.lxor b c = 256 * (b / 256) + Z.lxor (b mod 256) c /\ 0 <= Z.lxor (b mod 256) c < 256.
Proof.
  intros B C. assert (R : 0 <= Z.lxor (b mod 256) c < 256).
  { pose proof (Z.mod_pos_bound b 256 ltac:(lia)) as M. revert M. generalize (b mod 256). intros r M.
    assert (P : 0 <= Z.lxor r c) by (apply Z.lxor_nonneg; split; lia). split; [easy|].
    destruct (Z.eq_dec (Z.lxor r c) 0) as [E|NZ]; [lia|]. change (Z.lxor r c < 2 ^ 8). apply Z.log2_lt_pow2; [lia|].
    pose proof (Z.log2_lxor r c ltac:(lia) ltac:(lia)) as L.
    assert (Z.log2 r < 8) by (destruct (Z.eq_dec r 0) as [->|]; [easy|apply Z.log2_lt_pow2; change (2 ^ 8) with 256; lia]).
    assert (Z.log2 c < 8) by (destruct (Z.eq_dec c 0) as [->|]; [easy|apply Z.log2_lt_pow2; change (2 ^ 8) with 256; lia]). lia. }
  split; [|easy]. apply Z.bits_inj'. intros n Hn. rewrite Z.lxor_spec.
  replace (256 * (b / 256) + Z.lxor (b mod 256) c) with (Z.lxor (b mod 256) c + (b / 256) * 2 ^ 8) by (change (2 ^ 8) with 256; lia).
  destruct (Z.lt_ge_cases n 8) as [L|G].
  - rewrite <- (Z.mod_pow2_bits_low (Z.lxor (b mod 256) c + b / 256 * 2 ^ 8) 8 n) by easy. rewrite Z.add_mod by easy. rewrite Z.mod_mul by easy. rewrite Z.add_0_r, Z.mod_mod by easy.
    rewrite Z.mod_small by (change (2 ^ 8) with 256; lia). rewrite Z.lxor_spec. change 256 with (2 ^ 8). now rewrite Z.mod_pow2_bits_low.
  - replace n with ((n - 8) + 8) by lia. rewrite <- (Z.div_pow2_bits (Z.lxor (b mod 256) c + b / 256 * 2 ^ 8) 8 (n - 8)) by lia. rewrite Z.div_add by easy.
    rewrite (Z.div_small (Z.lxor (b mod 256) c)) by (change (2 ^ 8) with 256; lia). rewrite Z.add_0_l.
    change 256 with (2 ^ 8). rewrite Z.div_pow2_bits by lia. replace (n - 8 + 8) with n by lia.
    replace (Z.testbit c n) with false; [now rewrite xorb_false_r|]. symmetry. destruct (Z.eq_dec c 0) as [->|NZ]; [apply Z.bits_0|].
    apply Z.bits_above_log2; [lia|]. assert (Z.log2 c < 8) by (apply Z.log2_lt_pow2; change (2 ^ 8) with 256; lia). lia.
Qed.
Lemma lxor_div b c : 0 <= b -> 0 <= c < 256 -> Z.lxor b c / 256 = b / 256.
Proof. intros B C. destruct (lxor_split b c B C) as [-> R]. rewrite Z.mul_comm, Z.div_add_l by easy. rewrite (Z.div_small (Z.lxor _ _)) by easy. lia. Qed.
Lemma lxor_ge0 b c : 0 <= b -> 0 <= c < 256 -> 0 <= Z.lxor b c.
Proof. intros B C. apply Z.lxor_nonneg. split; lia. Qed.
Lemma lxor_lt b c n : 0 <= b -> 0 <= c < 256 -> b < 256 * n -> Z.lxor b c < 256 * n.
Proof.
  intros B C L. pose proof (lxor_div b c B C) as D. pose proof (Z.div_lt_upper_bound b 256 n ltac:(lia) L).
  pose proof (Z.div_mod (Z.lxor b c) 256 ltac:(lia)). pose proof (Z.mod_pos_bound (Z.lxor b c) 256 ltac:(lia)). lia.
Qed.
Lemma lxor_twice b c : Z.lxor (Z.lxor b c) c = b.
Proof. now rewrite Z.lxor_assoc, Z.lxor_nilpotent, Z.lxor_0_r. Qed.
Lemma lxor_inj_r b c d : Z.lxor b c = Z.lxor b d -> c = d.
Proof. intros H. rewrite <- (lxor_twice c b), <- (lxor_twice d b). now rewrite (Z.lxor_comm c b), (Z.lxor_comm d b), H. Qed.
Lemma lxor_inj_l b c d : Z.lxor b d = Z.lxor c d -> b = c.
Proof. intros H. rewrite <- (lxor_twice b d), <- (lxor_twice c d). now rewrite H. Qed.
Lemma lxor_cell b x : 0 <= b -> 0 <= x -> b / 256 = x / 256 -> 0 <= Z.lxor b x < 256.
Proof.
  intros B X D. rewrite (Z.div_mod b 256), (Z.div_mod x 256), D by easy.
  pose proof (Z.mod_pos_bound b 256 ltac:(lia)) as Mb. pose proof (Z.mod_pos_bound x 256 ltac:(lia)) as Mx.
  set (q := x / 256) in *. assert (Hq : 0 <= q) by (unfold q; apply Z.div_pos; lia).
  pose proof (lxor_split (256 * q) (b mod 256) ltac:(lia) Mb) as [E _]. pose proof (lxor_split (256 * q) (x mod 256) ltac:(lia) Mx) as [F _].
  rewrite Z.mul_comm, Z.div_mul, Z.mod_mul, Z.lxor_0_l in E, F by easy. rewrite (Z.mul_comm q) in *.
  rewrite <- E, <- F. rewrite (Z.lxor_comm (256 * q) (b mod 256)), Z.lxor_assoc, <- (Z.lxor_assoc (256 * q)), Z.lxor_nilpotent, Z.lxor_0_l.
  pose proof (lxor_split (b mod 256) (x mod 256) ltac:(lia) Mx) as [_ R]. rewrite Z.mod_mod in R by easy. easy.
Qed.
