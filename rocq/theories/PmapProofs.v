(** Proofs about pmap: the split. *)
From Verif Require Import Base ListAux PmapModel PmapSpec.
Ltac Zify.zify_post_hook ::= Z.to_euclidean_division_equations.

Lemma chk64_ok z : int64 z -> chk64 z = Ok z.
Proof. intros H. unfold chk64, int64b, int64 in *. replace ((- two63 <=? z) && (z <? two63)) with true by lia. reflexivity. Qed.

Lemma covers_end a b l : covers a b l -> a <= b.
Proof. revert a. induction l as [|[p n] l IH]; cbn; intros a H; [lia|]. destruct H as (-> & H1 & H2). apply IH in H2. lia. Qed.

(** After the switch every chunk has the same length [s] and there are [E - i] of them. *)
Lemma loop_rest s size E sl : 0 < s -> size < two63 -> forall k i pos, 0 <= k -> 0 <= pos -> E - i = k -> size = pos + k * s ->
  forall fuel, (Z.to_nat (size - pos) <= fuel)%nat ->
  exists r, plan_loop fuel E i pos s sl size false = Ok r /\ covers pos size r /\
    Z.of_nat (length r) = k /\ forall c, In c r -> snd c = s.
Proof.
  intros Hs HS k i pos Hk. revert i pos. pattern k. apply natlike_ind; [| |exact Hk]; clear k Hk.
  - intros i pos H1 H2 H3 fuel Hf. exists []. destruct fuel; cbn [plan_loop];
    replace ((i <? E) && (pos <? size)) with false by lia; (split; [reflexivity|]; split; [cbn; lia|]; split; [reflexivity|intros c []]).
  - intros k Hk IH i pos H1 H2 H3 fuel Hf.
    assert (Z.succ k * s = s + k * s) by lia.
    assert (0 <= k * s) by (apply Z.mul_nonneg_nonneg; lia).
    destruct fuel as [|f]; [lia|]. cbn [plan_loop].
    replace ((i <? E) && (pos <? size)) with true by lia. cbn [andb bind].
    rewrite chk64_ok by (unfold int64, two63 in *; lia). cbn [bind].
    destruct (IH (i + 1) (pos + s)) with (fuel := f) as (r & E1 & C & L & A); [lia|lia|lia|lia|].
    exists ((pos, s) :: r). rewrite E1. cbn [bind]. split; [reflexivity|].
    split; [cbn [covers]; split; [reflexivity|split; [lia|exact C]]|].
    split; [cbn [length]; lia|]. intros c [<-|Hc]; [reflexivity|auto].
Qed.

(** Before it: [j] more chunks of the larger size [g * r], then [d] smaller ones. *)
Lemma loop_first g r d E size : 0 < g -> 1 <= r -> 0 <= d < E -> size = g * (E * r - d) -> size < two63 ->
  (r = 1 \/ 2 <= r) ->
  forall j, 0 <= j -> forall i pos, E - d - i = j -> 0 <= i -> pos = i * (g * r) ->
  forall fuel, (Z.to_nat (size - pos) <= fuel)%nat ->
  exists l, plan_loop fuel E i pos (g * r) (g * r - g) size true = Ok l /\ covers pos size l /\
    Z.of_nat (length l) = (if r =? 1 then j else j + d) /\
    forall c, In c l -> snd c = g * r \/ (2 <= r /\ snd c = g * r - g).
Proof.
  intros Hg Hr Hd HS HB Hc j Hj. pattern j. apply natlike_ind; [| |exact Hj]; clear j Hj.
  - intros i pos Hi H0 Hp fuel Hf. assert (Ei : i = E - d) by lia.
    destruct Hc as [->|Hr2].
    + exists []. assert (pos = size) by (subst; ring).
      destruct fuel; cbn [plan_loop]; replace ((i <? E) && (pos <? size)) with false by lia;
        (split; [reflexivity|]; split; [cbn; lia|]; split; [reflexivity|intros c []]).
    + assert (HD : size = pos + d * (g * r - g)) by (subst; ring).
      replace (r =? 1) with false by lia.
      assert (Hl : 0 < g * r - g) by nia.
      destruct (Z.eq_dec d 0) as [->|Hd0].
      * exists []. destruct fuel; cbn [plan_loop]; replace ((i <? E) && (pos <? size)) with false by lia;
        (split; [reflexivity|]; split; [cbn; lia|]; split; [reflexivity|intros c []]).
      * assert (0 <= pos) by (subst pos; apply Z.mul_nonneg_nonneg; [lia|apply Z.mul_nonneg_nonneg; lia]).
        assert (HX : g * r - g <= d * (g * r - g)) by nia.
        destruct fuel as [|f]; [lia|]. cbn [plan_loop].
        replace ((i <? E) && (pos <? size)) with true by lia.
        replace (g * r - g =? 0) with false by lia. cbn [andb negb].
        replace ((g * r - g) * (E - i)) with (d * (g * r - g)) by (rewrite Ei; ring).
        rewrite chk64_ok by (unfold int64, two63 in *; lia). cbn [bind].
        rewrite chk64_ok by (unfold int64, two63 in *; lia). cbn [bind].
        replace (pos + d * (g * r - g) =? size) with true by lia.
        rewrite chk64_ok by (unfold int64, two63 in *; lia). cbn [bind].
        assert (HY : d * (g * r - g) = (g * r - g) + (d - 1) * (g * r - g)) by ring.
        destruct (loop_rest (g * r - g) size E (g * r - g) Hl HB (d - 1) (i + 1) (pos + (g * r - g)))
          with (fuel := f) as (l & E1 & C & L & A); [lia|lia|lia|lia|lia|].
        exists ((pos, g * r - g) :: l). rewrite E1. cbn [bind]. split; [reflexivity|].
        split; [cbn [covers]; split; [reflexivity|split; [lia|exact C]]|].
        split; [cbn [length]; lia|]. intros c [<-|Hc']; [right; split; [lia|reflexivity]|right; split; [lia|auto]].
  - intros j Hj IH i pos Hi H0 Hp fuel Hf.
    assert (HG : 0 < g * r) by (apply Z.mul_pos_pos; lia).
    assert (HP : 0 <= pos) by (subst pos; apply Z.mul_nonneg_nonneg; lia).
    assert (HD : size = pos + (j + 1) * (g * r) + d * (g * r - g)) by (replace (j + 1) with (E - d - i) by lia; subst; ring).
    assert (0 <= d * (g * r - g)) by (apply Z.mul_nonneg_nonneg; nia).
    assert ((j + 1) * (g * r) = j * (g * r) + g * r) by ring.
    assert (0 <= j * (g * r)) by (apply Z.mul_nonneg_nonneg; lia).
    destruct fuel as [|f]; [lia|]. cbn [plan_loop].
    replace ((i <? E) && (pos <? size)) with true by lia.
    assert (SW : (if true && negb (g * r - g =? 0)
       then let! m := chk64 ((g * r - g) * (E - i)) in let! s := chk64 (pos + m) in Ok (s =? size)
       else Ok false) = Ok false).
    { destruct Hc as [->|Hr2].
      - replace (g * 1 - g =? 0) with true by lia. reflexivity.
      - assert (0 < g * r - g) by nia. replace (g * r - g =? 0) with false by lia. cbn [andb negb].
        assert (HM : (g * r - g) * (E - i) = (j + 1) * (g * r - g) + d * (g * r - g)) by (replace E with (j + 1 + d + i) by lia; ring).
        assert (HM2 : (j + 1) * (g * r - g) = (j + 1) * (g * r) - (j + 1) * g) by ring.
        assert (0 < (j + 1) * g) by (apply Z.mul_pos_pos; lia).
        assert (0 <= (j + 1) * (g * r - g)) by (apply Z.mul_nonneg_nonneg; lia).
        rewrite chk64_ok by (unfold int64, two63 in *; lia). cbn [bind].
        rewrite chk64_ok by (unfold int64, two63 in *; lia). cbn [bind].
        f_equal. lia. }
    rewrite SW. cbn [bind]. rewrite chk64_ok by (unfold int64, two63 in *; lia). cbn [bind].
    destruct (IH (i + 1) (pos + g * r)) with (fuel := f) as (l & E1 & C & L & A); [lia|lia|subst pos; ring|lia|].
    exists ((pos, g * r) :: l). rewrite E1. cbn [bind]. split; [reflexivity|].
    split; [cbn [covers]; split; [reflexivity|split; [lia|exact C]]|].
    split; [cbn [length]; destruct (r =? 1); lia|]. intros c [<-|Hc']; [left; reflexivity|auto].
Qed.

Definition threads_of (nw E : Z) : Z := if E <=? 0 then nw + 1 else E.
Definition group_of (g : Z) : Z := if g <=? 0 then 1 else g.

Lemma plan_ok nw E g n : 0 <= nw -> threads_of nw E <= max_tasks -> 0 < n <= max_tasks ->
  n mod group_of g = 0 ->
  exists chunks, plan nw E g n = Ok chunks /\ fair_split (threads_of nw E) (group_of g) n chunks /\
    Z.of_nat (length chunks) = Z.min (threads_of nw E) (n / group_of g).
Proof.
  intros Hnw HE Hn Hg. unfold plan. fold (threads_of nw E) (group_of g).
  assert (HT : 0 < threads_of nw E) by (unfold threads_of; destruct (E <=? 0) eqn:?; lia).
  assert (HG : 0 < group_of g) by (unfold group_of; destruct (g <=? 0) eqn:?; lia).
  set (T := threads_of nw E) in *. set (G := group_of g) in *. clearbody T G. clear E g nw Hnw.
  unfold max_tasks in *.
  assert (Hm : n = G * (n / G)) by (pose proof (Z.div_mod n G); lia).
  remember (n / G) as m eqn:Em. symmetry in Em.
  assert (Hm0 : 0 < m) by (destruct (Z.le_gt_cases m 0); [exfalso; pose proof (Z.mul_le_mono_nonneg_l m 0 G); lia|assumption]).
  assert (Hm1 : m <= n) by (pose proof (Z.mul_le_mono_nonneg_r 1 G m); lia).
  unfold crem64, cdiv64. unfold two63. replace (G =? 0) with false by lia.
  replace ((n =? - 2 ^ 63) && (G =? -1)) with false by lia. cbn [bind].
  rewrite Z.rem_mod_nonneg by lia. rewrite Hg. cbn [Z.eqb negb].
  rewrite Z.quot_div_nonneg by lia. rewrite Em. cbn [bind].
  rewrite chk64_ok by (unfold int64, two63; lia). cbn [bind].
  rewrite chk64_ok by (unfold int64, two63; lia). cbn [bind].
  replace (T =? 0) with false by lia. replace ((m + T - 1 =? - 2 ^ 63) && (T =? -1)) with false by lia. cbn [bind].
  rewrite Z.quot_div_nonneg by lia.
  set (r := (m + T - 1) / T).
  assert (Hr : T * r <= m + T - 1 < T * r + T) by (unfold r; pose proof (Z.div_mod (m + T - 1) T); pose proof (Z.mod_pos_bound (m + T - 1) T); lia).
  assert (Hr1 : 1 <= r) by nia. clearbody r. clear Em Hg.
  assert (HGr : G * r <= 2 * n).
  { assert (r <= m) by nia. nia. }
  assert (0 < G * r) by (apply Z.mul_pos_pos; lia). assert (G <= n) by nia.
  rewrite chk64_ok by (unfold int64, two63; lia). cbn [bind].
  rewrite chk64_ok by (unfold int64, two63; lia). cbn [bind].
  replace (T >? 576460752303423487) with false by lia.
  destruct (loop_first G r (T * r - m) T n) with (j := T - (T * r - m)) (i := 0) (pos := 0) (fuel := Z.to_nat n)
    as (l & E1 & C & L & A); try lia; try (unfold two63; lia).
  exists l. rewrite E1. split; [reflexivity|].
  assert (HL : Z.of_nat (length l) = Z.min T m).
  { rewrite L. destruct (r =? 1) eqn:E2; [assert (r = 1) by lia; subst r; lia|]. nia. }
  split; [|exact HL]. split; [exact C|]. split; [lia|]. split.
  - intros c Hc. apply A in Hc. destruct Hc as [->|[_ ->]].
    + rewrite Z.mul_comm. apply Z.mod_mul. lia.
    + replace (G * r - G) with ((r - 1) * G) by ring. apply Z.mod_mul. lia.
  - intros c d Hc Hd. apply A in Hc. apply A in Hd. lia.
Qed.

Lemma plan_bad_group nw E g n : 0 < n <= max_tasks -> n mod group_of g <> 0 -> plan nw E g n = Exn CheckFailed.
Proof.
  intros Hn H. unfold plan. fold (threads_of nw E) (group_of g).
  assert (HG : 0 < group_of g) by (unfold group_of; destruct (g <=? 0) eqn:?; lia).
  unfold crem64, max_tasks in *. replace (group_of g =? 0) with false by lia.
  unfold two63. replace ((n =? - 2 ^ 63) && (group_of g =? -1)) with false by lia. cbn [bind].
  rewrite Z.rem_mod_nonneg by lia. destruct (n mod group_of g =? 0) eqn:E1; [lia|reflexivity].
Qed.
