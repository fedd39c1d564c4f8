(** Unique names and signatures. *)
From Verif Require Import Base ListAux FmtModel FmtSpec FmtProofs GraphModel GraphSpec.
Ltac Zify.zify_post_hook ::= Z.to_euclidean_division_equations.

Lemma key_eqb_spec a b : reflect (a = b) (key_eqb a b).
Proof.
  revert b. induction a as [|x a IH]; intros [|y b]; cbn; try (constructor; congruence).
  destruct (Z.eqb_spec x y) as [->|N]; cbn; [|constructor; congruence].
  destruct (IH b) as [->|N]; constructor; congruence.
Qed.
Lemma key_eqb_refl a : key_eqb a a = true.
Proof. destruct (key_eqb_spec a a); congruence. Qed.

Section Dict.
Context {A : Type}.
Implicit Types (d : list (key * A)).

Lemma dfind_app d d' k : dfind (d ++ d') k = match dfind d k with Some a => Some a | None => dfind d' k end.
Proof. induction d as [|[k' a] d IH]; cbn; [reflexivity|]. destruct (key_eqb k k'); auto. Qed.
Lemma dfind_demplace d k a k' :
  dfind (demplace d k a) k' =
  match dfind d k' with
  | Some b => Some b
  | None => if key_eqb k' k then Some a else None
  end.
Proof.
  unfold demplace. destruct (dfind d k) as [b|] eqn:E.
  - destruct (dfind d k') as [b'|] eqn:E'; [reflexivity|].
    destruct (key_eqb_spec k' k) as [->|]; [congruence|reflexivity].
  - rewrite dfind_app. cbn. destruct (dfind d k'); [reflexivity|]. destruct (key_eqb k' k); reflexivity.
Qed.
Lemma dfind_dupdate d k a k' :
  dfind (dupdate d k a) k' =
  if key_eqb k' k then match dfind d k with Some _ => Some a | None => None end else dfind d k'.
Proof.
  induction d as [|[k0 b] d IH]; cbn; [destruct (key_eqb k' k); reflexivity|].
  destruct (key_eqb_spec k k0) as [E|N]; cbn.
  - subst k0. destruct (key_eqb k' k); reflexivity.
  - rewrite IH. destruct (key_eqb_spec k' k0) as [E|N']; [|reflexivity].
    subst k0. destruct (key_eqb_spec k' k); [congruence|reflexivity].
Qed.
End Dict.

(** ** Decimal numbers and separators *)
Lemma dec20 n : 0 <= n < two64 -> py_nat_str n (dec_digits 20 n []).
Proof.
  intros H. destruct (dec_digits_ok 20 n []) as (ds & He & Hd & Hv & Hl); [lia| |lia|].
  { change (10 ^ Z.of_nat 20) with 100000000000000000000. unfold two64 in H. lia. }
  rewrite He, app_nil_r. repeat split; assumption.
Qed.
Lemma dec20_inj n m : 0 <= n < two64 -> 0 <= m < two64 ->
  dec_digits 20 n [] = dec_digits 20 m [] -> n = m.
Proof.
  intros Hn Hm E. destruct (dec20 n Hn) as (_ & <- & _). destruct (dec20 m Hm) as (_ & <- & _). congruence.
Qed.
Lemma dec20_no95 n : 0 <= n < two64 -> ~ In 95 (dec_digits 20 n []).
Proof.
  intros Hn I. destruct (dec20 n Hn) as (F & _). rewrite Forall_forall in F. specialize (F _ I). cbn in F. lia.
Qed.
Lemma sep_split (k1 k2 d1 d2 : key) : ~ In 95 d1 -> ~ In 95 d2 ->
  k1 ++ [95] ++ d1 = k2 ++ [95] ++ d2 -> k1 = k2 /\ d1 = d2.
Proof.
  intros H1 H2. revert k2. induction k1 as [|x k1 IH]; intros [|y k2] E; cbn in *.
  - injection E as E. auto.
  - injection E as E1 E2. exfalso. apply H1. rewrite E2. apply in_or_app. right. left. reflexivity.
  - injection E as E1 E2. exfalso. apply H2. rewrite <- E2. apply in_or_app. right. left. reflexivity.
  - injection E as -> E. destruct (IH k2 E) as [-> ->]. auto.
Qed.

(** ** Counters *)
Definition counter (idx : list (key * Z)) (k : key) : Z :=
  match dfind idx k with Some n => n | None => 0 end.

Lemma gen_index_spec idx nm : gen_index idx nm = (counter idx nm, snd (gen_index idx nm)) /\
  forall k, counter (snd (gen_index idx nm)) k =
    if key_eqb k nm then wrapu64 (counter idx nm + 1) else counter idx k.
Proof.
  unfold gen_index, counter. destruct (dfind idx nm) as [n|] eqn:E.
  - rewrite E. cbn. split; [reflexivity|]. intros k. rewrite dfind_dupdate, E.
    destruct (key_eqb_spec k nm) as [->|]; reflexivity.
  - rewrite dfind_demplace, E, key_eqb_refl. cbn. split; [reflexivity|]. intros k.
    rewrite dfind_dupdate, !dfind_demplace, E, key_eqb_refl.
    destruct (key_eqb_spec k nm) as [->|N]; [reflexivity|]. destruct (dfind idx k); reflexivity.
Qed.

(** All counters lie below [b]. *)
Definition below (idx : list (key * Z)) (b : Z) : Prop := forall k, 0 <= counter idx k <= b.

Lemma below_step idx nm b : below idx b -> b + 1 < two64 -> below (snd (gen_index idx nm)) (b + 1).
Proof.
  intros H Hb k. destruct (gen_index_spec idx nm) as (_ & ->). pose proof (H nm). pose proof (H k).
  destruct (key_eqb k nm); [|lia]. unfold wrapu64. rewrite Z.mod_small; lia.
Qed.
Lemma counter_mono idx nm b k : below idx b -> b + 1 < two64 ->
  counter idx k <= counter (snd (gen_index idx nm)) k.
Proof.
  intros H Hb. destruct (gen_index_spec idx nm) as (_ & ->). pose proof (H nm).
  destruct (key_eqb_spec k nm) as [->|]; [|lia]. unfold wrapu64. rewrite Z.mod_small; lia.
Qed.
Lemma counter_incr idx nm b : below idx b -> b + 1 < two64 ->
  counter (snd (gen_index idx nm)) nm = counter idx nm + 1.
Proof.
  intros H Hb. destruct (gen_index_spec idx nm) as (_ & ->). rewrite key_eqb_refl.
  pose proof (H nm). unfold wrapu64. rewrite Z.mod_small; lia.
Qed.

(** Every name still to come is new: its number is at least the counter of its key. *)
Lemma names_from h idx rs b : below idx b -> b + Z.of_nat (length rs) < two64 ->
  (forall nm, In nm (names_given h idx rs) ->
     exists k n, nm = k ++ [95] ++ dec_digits 20 n [] /\ counter idx k <= n < two64) /\
  NoDup (names_given h idx rs).
Proof.
  revert idx b. induction rs as [|r rs IH]; intros idx b Hb Hl; [split; [intros nm []|constructor]|].
  cbn [length] in Hl. destruct r as [p sd|nm0]; cbn [names_given].
  - unfold gen_uniq_name. set (K := p ++ [95] ++ dec_digits 20 (h sd) []).
    destruct (gen_index_spec idx K) as (E & _). rewrite E.
    destruct (IH (snd (gen_index idx K)) (b + 1)) as (I1 & I2); [apply below_step; [assumption|lia]|lia|].
    pose proof (Hb K) as HK. split.
    + intros nm [<-|I].
      * exists K, (counter idx K). split; [reflexivity|lia].
      * destruct (I1 nm I) as (k & n & -> & Hn). exists k, n. split; [reflexivity|].
        pose proof (counter_mono idx K b k Hb). lia.
    + constructor; [|assumption]. intros I. destruct (I1 _ I) as (k & n & E' & Hn).
      pose proof (below_step idx K b Hb ltac:(lia) k) as Hk.
      apply sep_split in E'; [|apply dec20_no95; lia|apply dec20_no95; lia].
      destruct E' as (<- & E'). apply dec20_inj in E'; [|lia|lia].
      rewrite (counter_incr idx K b Hb) in Hn by lia. lia.
  - destruct (gen_index_spec idx nm0) as (E & _). rewrite E.
    destruct (IH (snd (gen_index idx nm0)) (b + 1)) as (I1 & I2); [apply below_step; [assumption|lia]|lia|].
    split; [|assumption]. intros nm I. destruct (I1 nm I) as (k & n & -> & Hn). exists k, n.
    split; [reflexivity|]. pose proof (counter_mono idx nm0 b k Hb). lia.
Qed.

Lemma indices_from h name idx rs b : below idx b -> b + Z.of_nat (length rs) < two64 ->
  (forall i, In i (indices_given h name idx rs) -> counter idx name <= i) /\
  NoDup (indices_given h name idx rs).
Proof.
  revert idx b. induction rs as [|r rs IH]; intros idx b Hb Hl; [split; [intros nm []|constructor]|].
  cbn [length] in Hl. destruct r as [p sd|nm0]; cbn [indices_given].
  - unfold gen_uniq_name. set (K := p ++ [95] ++ dec_digits 20 (h sd) []).
    destruct (gen_index_spec idx K) as (E & _). rewrite E. cbn [snd].
    destruct (IH (snd (gen_index idx K)) (b + 1)) as (I1 & I2); [apply below_step; [assumption|lia]|lia|].
    split; [|assumption]. intros i I. specialize (I1 i I). pose proof (counter_mono idx K b name Hb). lia.
  - destruct (gen_index_spec idx nm0) as (E & _). rewrite E.
    destruct (IH (snd (gen_index idx nm0)) (b + 1)) as (I1 & I2); [apply below_step; [assumption|lia]|lia|].
    destruct (key_eqb_spec nm0 name) as [->|N]; cbn [app].
    + pose proof (counter_incr idx name b Hb ltac:(lia)) as C. split.
      * intros i [<-|I]; [lia|]. specialize (I1 i I). lia.
      * constructor; [|assumption]. intros I. specialize (I1 _ I). lia.
    + split; [|assumption]. intros i I. specialize (I1 i I). pose proof (counter_mono idx nm0 b name Hb). lia.
Qed.

Lemma nodup_map_in {A B} (f : A -> B) (l : list A) :
  (forall a b, In a l -> In b l -> f a = f b -> a = b) -> NoDup l -> NoDup (map f l).
Proof.
  intros Hf H. induction H as [|a l N H IH]; cbn; [constructor|]. constructor.
  - intros I. apply in_map_iff in I. destruct I as (b & E & I). apply N.
    rewrite <- (Hf b a); [assumption|right; assumption|left; reflexivity|assumption].
  - apply IH. intros x y Hx Hy. apply Hf; right; assumption.
Qed.

(** ** Signatures *)
Lemma existsb_in x l : existsb (Z.eqb x) l = true <-> In x l.
Proof.
  rewrite existsb_exists. split; [intros (y & I & E)|intros I; exists x; split; [assumption|lia]].
  apply Z.eqb_eq in E. subst. assumption.
Qed.
Lemma existsb_nin x l : existsb (Z.eqb x) l = false <-> ~ In x l.
Proof. rewrite <- existsb_in. destruct (existsb (Z.eqb x) l); split; congruence. Qed.

Lemma sig_loop_fresh fuel sigs h r o x : sig_loop fuel sigs h r o = Ok x -> ~ In x sigs.
Proof.
  revert r o. induction fuel as [|f IH]; intros r o; cbn [sig_loop]; [discriminate|].
  destruct (existsb (Z.eqb r) sigs) eqn:E; [apply IH|]. intros [= <-]. apply existsb_nin. assumption.
Qed.
Definition cand (h k : Z) : Z := wrapu64 (h + wrapu64 (k * 2 ^ 32)).
Lemma cand_range h k : 0 <= cand h k < two64.
Proof. unfold cand, wrapu64, two64. apply Z.mod_pos_bound. lia. Qed.
Lemma sig_loop_range fuel sigs h r o x : 0 <= r < two64 -> sig_loop fuel sigs h r o = Ok x -> 0 <= x < two64.
Proof.
  revert r o. induction fuel as [|f IH]; intros r o Hr; cbn [sig_loop]; [discriminate|].
  destruct (existsb (Z.eqb r) sigs) eqn:E; [|intros [= <-]; assumption].
  apply IH. apply cand_range.
Qed.
Lemma cand_inj h a b : 0 <= a < two32 -> 0 <= b < two32 -> cand h a = cand h b -> a = b.
Proof. unfold cand, wrapu64, two64, two32. intros Ha Hb E. lia. Qed.

(** The loop runs out of fuel only if as many candidates as it had turns were all taken. *)
Lemma sig_loop_stuck fuel sigs h o : 0 <= o -> o + Z.of_nat fuel < two32 ->
  sig_loop fuel sigs h (cand h o) (o + 1) = OutOfFuel ->
  forall k, o <= k < o + Z.of_nat fuel -> In (cand h k) sigs.
Proof.
  revert o. induction fuel as [|f IH]; intros o Ho Hf E k Hk; [lia|]. cbn [sig_loop] in E.
  destruct (existsb (Z.eqb (cand h o)) sigs) eqn:EX; [|discriminate].
  apply existsb_in in EX. destruct (Z.eq_dec k o) as [->|N]; [assumption|].
  fold (cand h (o + 1)) in E.
  replace (wrapu64 (o + 1 + 1)) with (o + 1 + 1) in E
    by (unfold wrapu64; rewrite Z.mod_small; unfold two32, two64 in *; lia).
  apply (IH (o + 1)); [lia|lia|assumption|lia].
Qed.
Lemma sig_loop_cases fuel sigs h r o : sig_loop fuel sigs h r o = OutOfFuel \/ exists x, sig_loop fuel sigs h r o = Ok x.
Proof.
  revert r o. induction fuel as [|f IH]; intros r o; cbn [sig_loop]; [auto|].
  destruct (existsb (Z.eqb r) sigs); [apply IH|eauto].
Qed.

Lemma sig_loop_ok sigs h fuel : 0 <= h < two64 -> (length sigs < fuel)%nat ->
  Z.of_nat (length sigs) + 1 < two32 -> exists x, sig_loop fuel sigs h h 1 = Ok x.
Proof.
  intros Hh Hf Hl.
  assert (M : exists x, sig_loop (S (length sigs)) sigs h h 1 = Ok x).
  { destruct (sig_loop_cases (S (length sigs)) sigs h h 1) as [E|E]; [|assumption]. exfalso.
    assert (C0 : h = cand h 0) by (unfold cand, wrapu64, two64 in *; lia).
    rewrite C0 in E at 2. change 1 with (0 + 1) in E.
    pose proof (sig_loop_stuck (S (length sigs)) sigs h 0 ltac:(lia) ltac:(unfold two32 in *; lia) E) as ST.
    assert (I : incl (map (fun k => cand h (Z.of_nat k)) (seq 0 (S (length sigs)))) sigs).
    { intros x Hx. apply in_map_iff in Hx. destruct Hx as (k & <- & Hk). apply in_seq in Hk. apply ST. lia. }
    apply NoDup_incl_length in I.
    - rewrite map_length, seq_length in I. lia.
    - apply nodup_map_in; [|apply seq_NoDup]. intros a b Ha Hb Eab.
      apply in_seq in Ha, Hb. apply cand_inj in Eab; lia. }
  destruct M as (x & M). exists x.
  assert (mono : forall f1 f2 r o x, (f1 <= f2)%nat -> sig_loop f1 sigs h r o = Ok x -> sig_loop f2 sigs h r o = Ok x).
  { clear. induction f1 as [|f1 IH]; intros f2 r o x Hf E; [discriminate|]. destruct f2 as [|f2]; [lia|].
    cbn [sig_loop] in *. destruct (existsb (Z.eqb r) sigs); [|assumption]. apply IH; [lia|assumption]. }
  apply (mono (S (length sigs))); [lia|assumption].
Qed.

(** When all candidates are taken the loop never ends. *)
Lemma sig_loop_forever fuel sigs h r o : In r sigs -> (forall k, In (cand h k) sigs) ->
  sig_loop fuel sigs h r o = OutOfFuel.
Proof.
  intros Hr Hk. revert r o Hr. induction fuel as [|f IH]; intros r o Hr; cbn [sig_loop]; [reflexivity|].
  apply existsb_in in Hr. rewrite Hr. apply IH. apply Hk.
Qed.

Lemma sigs_given_spec fuel bh sigs seeds : (forall s, 0 <= bh s < two64) ->
  (length sigs + length seeds <= fuel)%nat -> Z.of_nat (length sigs + length seeds) < two32 ->
  exists rs, sigs_given fuel bh sigs seeds = Ok rs /\ length rs = length seeds /\
    NoDup rs /\ (forall r, In r rs -> ~ In r sigs /\ 0 <= r < two64).
Proof.
  intros Hb. revert sigs. induction seeds as [|s seeds IH]; intros sigs Hf Hl.
  { exists []. repeat split; try constructor; destruct H. }
  cbn [length] in *. cbn [sigs_given]. unfold gen_uniq_signature.
  destruct (sig_loop_ok sigs (bh s) fuel) as (x & E); [apply Hb|lia|lia|]. rewrite E. cbn [bind].
  pose proof (sig_loop_fresh _ _ _ _ _ _ E) as F. pose proof (sig_loop_range _ _ _ _ _ _ (Hb s) E) as R.
  destruct (IH (x :: sigs)) as (rs & -> & L & ND & D); [cbn [length]; lia|cbn [length]; lia|].
  cbn [bind]. exists (x :: rs). split; [reflexivity|]. split; [cbn; lia|]. split.
  - constructor; [|assumption]. intros I. apply (proj1 (D x I)). left. reflexivity.
  - intros r [<-|I]; [auto|]. destruct (D r I) as (D1 & D2). split; [|assumption]. intros I'. apply D1. right. assumption.
Qed.

(** ** Keys of entries *)
Lemma entry_key_inj s1 s2 i1 i2 : 0 <= s1 < two64 -> 0 <= s2 < two64 ->
  Z.of_nat i1 < two64 -> Z.of_nat i2 < two64 ->
  entry_key s1 i1 = entry_key s2 i2 -> s1 = s2 /\ i1 = i2.
Proof.
  intros H1 H2 H3 H4 E. unfold entry_key in E.
  apply sep_split in E; [|apply dec20_no95; lia|apply dec20_no95; lia].
  destruct E as (E1 & E2). apply dec20_inj in E1; [|assumption|assumption].
  apply dec20_inj in E2; [|lia|lia]. lia.
Qed.
Lemma entry_key_plain s i : 0 <= s < two64 -> ~ plain_name (entry_key s i).
Proof.
  intros H (c & k & E & N). apply N. destruct (dec20 s H) as (F & _ & NE). unfold entry_key in E.
  revert F NE E. generalize (dec_digits 20 s []) (dec_digits 20 (Z.of_nat i) []). intros ds es F NE E.
  destruct ds as [|d ds]; [destruct NE as [NE|(? & ? & NE & _)]; discriminate|].
  cbn [app] in E. injection E as -> _. inversion F. assumption.
Qed.
