From Verif Require Import Base Utf8Model Utf8Spec Utf8Proofs.
Ltac Zify.zify_post_hook ::= Z.to_euclidean_division_equations.

(** ** Generic part: a decoder made of an unchecked head loop and a checked tail loop *)
Section Generic.
  Variable step : Z -> list Z -> Z * list Z.
  Variable good : Z -> list Z -> Z -> Prop.
  Variables head tail : nat -> list Z -> res (list Z).

  Hypothesis step_shape : forall b src1, is_byte b ->
    (exists conts r, src1 = conts ++ r /\ good b conts (fst (step b src1)) /\
                     snd (step b src1) = r) \/
    (step b src1 = (65533, src1) /\ forall conts r c, src1 = conts ++ r -> ~ good b conts c).
  Hypothesis good_len : forall b conts c, is_byte b -> good b conts c ->
    Z.of_nat (length conts) = lead_len b - 1.
  Hypothesis tail_nil : forall f, tail (S f) [] = Ok [].
  Hypothesis tail_step : forall f b src1, is_byte b -> Forall is_byte src1 ->
    tail (S f) (b :: src1) =
      if lead_len b - 1 >? Z.of_nat (length src1) then Ok [65533]
      else rmap (cons (fst (step b src1))) (tail f (snd (step b src1))).
  Hypothesis head_tail : forall f src, (length src <= 3)%nat -> head (S f) src = tail (S f) src.
  Hypothesis head_step : forall f b src1, is_byte b -> Forall is_byte src1 -> (3 <= length src1)%nat ->
    head (S f) (b :: src1) = rmap (cons (fst (step b src1))) (head f (snd (step b src1))).

  Definition g_outcome (src cs : list Z) : Prop :=
    (length cs <= length src)%nat /\
    exists p q, src = p ++ q /\ repl good p cs /\ (q = [] \/ truncated_at p q).

  Lemma g_outcome_step b src1 cs : is_byte b ->
    g_outcome (snd (step b src1)) cs -> g_outcome (b :: src1) (fst (step b src1) :: cs).
  Proof.
    intros Hb (HL & p & q & Hsplit & HR & HQ).
    destruct (step_shape b src1 Hb) as [(conts & r & -> & HC & Hr)|[HG HN]].
    - rewrite Hr in *. subst r. split.
      { cbn [length]. rewrite !app_length in *. lia. }
      exists (b :: conts ++ p), q. split; [cbn; rewrite app_assoc; reflexivity|]. split.
      + constructor; assumption.
      + destruct HQ as [->|HT]; [left; reflexivity|right].
        change (b :: conts ++ p) with ((b :: conts) ++ p). apply truncated_at_app, HT.
    - rewrite HG in *. cbn [fst snd] in *. subst src1. split.
      { cbn [length]. lia. }
      exists (b :: p), q. split; [reflexivity|]. split.
      + apply repl_bad; [|assumption]. intros conts r c Heq. apply (HN conts (r ++ q) c).
        rewrite Heq, app_assoc. reflexivity.
      + destruct HQ as [->|HT]; [left; reflexivity|right].
        change (b :: p) with ([b] ++ p). apply truncated_at_app, HT.
  Qed.

  Lemma g_step_bytes b src1 : Forall is_byte src1 -> is_byte b -> Forall is_byte (snd (step b src1)).
  Proof.
    intros Hs Hb. destruct (step_shape b src1 Hb) as [(conts & r & -> & _ & ->)|[-> _]].
    - apply Forall_app in Hs. tauto.
    - assumption.
  Qed.

  Lemma g_step_len b src1 : is_byte b -> (length (snd (step b src1)) <= length src1)%nat.
  Proof.
    intros Hb. destruct (step_shape b src1 Hb) as [(conts & r & -> & _ & ->)|[-> _]].
    - rewrite app_length. lia.
    - reflexivity.
  Qed.

  Lemma g_tail_outcome f src : Forall is_byte src -> (length src < f)%nat ->
    exists cs, tail f src = Ok cs /\ g_outcome src cs.
  Proof.
    revert src. induction f as [|f IH]; intros src Hs Hf; [lia|].
    destruct src as [|b src1].
    { exists []. split; [apply tail_nil|]. split; [lia|]. exists [], []. repeat split; [constructor|auto]. }
    inversion Hs as [|? ? Hb Hs1]; subst. rewrite tail_step by assumption.
    destruct (lead_len b - 1 >? Z.of_nat (length src1)) eqn:F.
    - exists [65533]. split; [reflexivity|]. split; [cbn; lia|].
      destruct (lead_of_len b Hb ltac:(lia)) as (n & pl & HL & Hn).
      exists [b], src1. split; [reflexivity|]. split.
      + apply repl_bad; [|constructor]. intros conts r c Heq HC.
        pose proof (good_len _ _ _ Hb HC) as Hlen.
        symmetry in Heq. apply app_eq_nil in Heq as [-> _]. cbn in Hlen. lia.
      + right. exists [], b, n, pl. repeat split; [assumption|lia].
    - destruct (IH (snd (step b src1))) as (cs & HE & HO).
      + apply g_step_bytes; assumption.
      + pose proof (g_step_len b src1 Hb). cbn [length] in Hf. lia.
      + rewrite HE. cbn [rmap]. eexists. split; [reflexivity|]. apply g_outcome_step; assumption.
  Qed.

  Lemma g_head_outcome f src : Forall is_byte src -> (length src < f)%nat ->
    exists cs, head f src = Ok cs /\ g_outcome src cs.
  Proof.
    revert src. induction f as [|f IH]; intros src Hs Hf; [lia|].
    destruct (le_lt_dec (length src) 3) as [Hl|Hl].
    { rewrite head_tail by assumption. apply g_tail_outcome; assumption. }
    destruct src as [|b src1]; [cbn in Hl; lia|]. cbn [length] in *.
    inversion Hs as [|? ? Hb Hs1]; subst. rewrite head_step by (try assumption; lia).
    destruct (IH (snd (step b src1))) as (cs & HE & HO).
    + apply g_step_bytes; assumption.
    + pose proof (g_step_len b src1 Hb). lia.
    + rewrite HE. cbn [rmap]. eexists. split; [reflexivity|]. apply g_outcome_step; assumption.
  Qed.
End Generic.

(** Replacement decoding is a function of the input when the sequence a byte starts
    is determined by the input. *)
Lemma repl_det (good : Z -> list Z -> Z -> Prop) :
  (forall b c1 c2 x1 x2 r1 r2, c1 ++ r1 = c2 ++ r2 -> good b c1 x1 -> good b c2 x2 ->
     c1 = c2 /\ x1 = x2) ->
  forall src a b, repl good src a -> repl good src b -> a = b.
Proof.
  intros HD src a b HA. revert b.
  induction HA as [|x conts c rest cs HG HR IH|x rest cs HN HR IH]; intros b HB.
  - inversion HB; reflexivity.
  - inversion HB as [|x2 conts2 c2 rest2 cs2 HG2 HR2|x2 rest2 cs2 HN2 HR2]; subst.
    + match goal with H : conts2 ++ rest2 = conts ++ rest |- _ =>
        destruct (HD _ _ _ _ _ _ _ H HG2 HG) as [-> ->]; apply app_inv_head in H; subst end.
      f_equal. apply IH. assumption.
    + exfalso. exact (HN2 conts rest c eq_refl HG).
  - inversion HB as [|x2 conts2 c2 rest2 cs2 HG2 HR2|x2 rest2 cs2 HN2 HR2]; subst.
    + exfalso. exact (HN conts2 rest2 c2 eq_refl HG2).
    + f_equal. apply IH. assumption.
Qed.

Lemma app_eq_len {A} (c1 c2 r1 r2 : list A) :
  c1 ++ r1 = c2 ++ r2 -> length c1 = length c2 -> c1 = c2.
Proof.
  revert c2. induction c1 as [|x c1 IH]; intros [|y c2] H L; cbn in *; try discriminate; [reflexivity|].
  inversion H; subst. f_equal. apply IH; [assumption|lia].
Qed.

Lemma lead_det b n p n' p' : lead b n p -> lead b n' p' -> n = n' /\ p = p'.
Proof. intros A B; inversion A; subst; inversion B; subst; lia. Qed.

Lemma complete_det b c1 c2 x1 x2 (r1 r2 : list Z) :
  c1 ++ r1 = c2 ++ r2 -> complete b c1 x1 -> complete b c2 x2 -> c1 = c2 /\ x1 = x2.
Proof.
  intros H (n & p & L & Hl & _ & ->) (n' & p' & L' & Hl' & _ & ->).
  destruct (lead_det _ _ _ _ _ L L') as [-> ->].
  assert (c1 = c2) as -> by (eapply app_eq_len; [eassumption|lia]). auto.
Qed.

Lemma strict_complete b conts c : complete_strict b conts c -> complete b conts c.
Proof.
  intros H. destruct (wf_seq_complete _ _ H) as (b' & conts' & Heq & _ & _ & HC).
  inversion Heq; subst. assumption.
Qed.

Lemma strict_det b c1 c2 x1 x2 (r1 r2 : list Z) :
  c1 ++ r1 = c2 ++ r2 -> complete_strict b c1 x1 -> complete_strict b c2 x2 -> c1 = c2 /\ x1 = x2.
Proof.
  intros H A B. eapply complete_det; [eassumption| |]; apply strict_complete; eassumption.
Qed.

(** ** The automaton, characterised by ranges *)
Definition st_lo (st : Z) : Z :=
  if st =? CS1 then 128 else if st =? CS2 then 128 else if st =? CS3 then 128
  else if st =? P3A then 160 else if st =? P3B then 128
  else if st =? P4A then 144 else if st =? P4B then 128 else 256.
Definition st_hi (st : Z) : Z :=
  if st =? CS1 then 191 else if st =? CS2 then 191 else if st =? CS3 then 191
  else if st =? P3A then 191 else if st =? P3B then 159
  else if st =? P4A then 191 else if st =? P4B then 143 else 0.
Definition st_next (st : Z) : Z :=
  if st =? CS1 then BGN else if st =? CS2 then CS1 else if st =? CS3 then CS2
  else if st =? P3A then CS1 else if st =? P3B then CS1
  else if st =? P4A then CS2 else if st =? P4B then CS2 else ERR.
Definition st_ok (st u : Z) : bool := (st_lo st <=? u) && (u <=? st_hi st).
Definition st_go (st u : Z) : Z := if st_ok st u then st_next st else ERR.

Definition mid_states : list Z := [ERR; CS1; CS2; CS3; P3A; P3B; P4A; P4B].

Lemma dfa_mid_trans st u : In st mid_states -> is_byte u ->
  (let! t := dfa_cat u in dfa_trans (st + t)) = Ok (st_go st u).
Proof.
  intros Hst Hu.
  set (chk := fun st u => match (let! t := dfa_cat u in dfa_trans (st + t)) with
                          | Ok x => x =? st_go st u | _ => false end).
  assert (H : chk st u = true).
  { assert (A : forallb (fun s => forallb (chk s) bytes256) mid_states = true)
      by (vm_compute; reflexivity).
    rewrite forallb_forall in A. specialize (A st Hst). rewrite forallb_forall in A.
    apply A, bytes256_in. exact Hu. }
  unfold chk in H. destruct (let! t := dfa_cat u in dfa_trans (st + t)); try discriminate.
  apply Z.eqb_eq in H. subst. reflexivity.
Qed.

Lemma dfa_cat_ok u : is_byte u -> exists t, dfa_cat u = Ok t.
Proof.
  intros Hu. pose proof (dfa_mid_trans CS1 u ltac:(cbn; tauto) Hu) as H.
  destruct (dfa_cat u); cbn in H; try discriminate. eauto.
Qed.

Definition first_val (b : Z) : Z * Z :=     (* payload bits, next state *)
  if b <? 128 then (b, BGN)
  else if b <? 192 then (b - 128, ERR)
  else if b <? 194 then (b, ERR)
  else if b <? 224 then (b - 192, CS1)
  else if b <? 225 then (0, P3A)
  else if b <? 237 then (b - 224, CS2)
  else if b <? 238 then (13, P3B)
  else if b <? 240 then (b - 224, CS2)
  else if b <? 241 then (0, P4A)
  else if b <? 244 then (b - 240, CS3)
  else if b <? 245 then (4, P4B)
  else (b, ERR).

Lemma dfa_first b : is_byte b ->
  exists t m, dfa_cat b = Ok t /\ rdz dfa_mask_table t = Ok m /\
              Z.land m b = fst (first_val b) /\ dfa_trans t = Ok (snd (first_val b)).
Proof.
  intros Hb.
  set (chk := fun b => match dfa_cat b with
     | Ok t => match rdz dfa_mask_table t, dfa_trans t with
               | Ok m, Ok n => (Z.land m b =? fst (first_val b)) && (n =? snd (first_val b))
               | _, _ => false end
     | _ => false end).
  assert (H : chk b = true) by (apply byte_sweep; [vm_compute; reflexivity|exact Hb]).
  unfold chk in H. destruct (dfa_cat b) as [t| | |] eqn:C; try discriminate.
  destruct (rdz dfa_mask_table t) as [m| | |] eqn:M; try discriminate.
  destruct (dfa_trans t) as [n| | |] eqn:T; try discriminate.
  apply andb_true_iff in H as [H1 H2]. apply Z.eqb_eq in H1, H2. subst n.
  exists t, m. repeat split; assumption.
Qed.

Lemma st_ok_cont st u : In st mid_states -> st_ok st u = true -> cont u.
Proof.
  unfold cont. cbn [mid_states In]. intros H.
  repeat destruct H as [<-|H]; try contradiction; unfold st_ok; cbn; lia.
Qed.

Lemma trace_loop_step st u r c : In st mid_states -> st <> ERR -> is_byte u ->
  dfa_trace_loop st (u :: r) c =
    if st_ok st u then dfa_trace_loop (st_next st) r (payload c [u])
    else Ok (ERR, Z.lor (Z.shiftl c 6) (Z.land u 63), r).
Proof.
  intros Hst Hne Hu. cbn [dfa_trace_loop].
  assert (G : (st >? ERR) = true).
  { cbn [mid_states In] in Hst. repeat destruct Hst as [<-|Hst]; try contradiction; reflexivity. }
  rewrite G. pose proof (dfa_mid_trans st u Hst Hu) as T.
  destruct (dfa_cat u) as [t| | |]; cbn [bind] in *; try discriminate. rewrite T. cbn [bind].
  unfold st_go. destruct (st_ok st u) eqn:E.
  - rewrite comb2 by (eapply st_ok_cont; eassumption). reflexivity.
  - destruct r; reflexivity.
Qed.

Lemma trace_loop_nil st c : In st mid_states -> st <> ERR ->
  dfa_trace_loop st [] c = Ok (ERR, c, []).
Proof.
  intros Hst Hne. cbn [mid_states In] in Hst.
  repeat destruct Hst as [<-|Hst]; try contradiction; reflexivity.
Qed.

Lemma trace_loop_BGN r c : dfa_trace_loop BGN r c = Ok (BGN, c, r).
Proof. destruct r; reflexivity. Qed.
Lemma trace_loop_ERR r c : dfa_trace_loop ERR r c = Ok (ERR, c, r).
Proof. destruct r; reflexivity. Qed.

Lemma advance_trace_step b rest : is_byte b ->
  dfa_advance_trace (b :: rest) = dfa_trace_loop (snd (first_val b)) rest (fst (first_val b)).
Proof.
  intros Hb. unfold dfa_advance_trace. rewrite rd0. cbn [bind skipn].
  destruct (dfa_first b Hb) as (t & m & -> & Hm & HL & HT). cbn [bind].
  rewrite Hm. cbn [bind]. rewrite HT. cbn [bind]. rewrite HL. reflexivity.
Qed.

(** Result of the trace decoder on one sequence. *)
Definition trace_result (b : Z) (rest : list Z) (r : res (Z * Z * list Z)) : Prop :=
  (exists c conts rest', rest = conts ++ rest' /\ wf_seq c (b :: conts) /\ r = Ok (BGN, c, rest')) \/
  (exists c rest', r = Ok (ERR, c, rest') /\
     forall conts r' x, rest = conts ++ r' -> ~ wf_seq x (b :: conts)).

Ltac mid := cbn [mid_states In]; tauto.

Ltac nowf :=
  let conts := fresh "conts" in let H := fresh "H" in let W := fresh "W" in
  right; eexists _, _; split; [reflexivity|];
  intros conts ? ? H W;
  inversion W; subst; try lia; try (cbn in H; inversion H; subst); try lia;
  repeat match goal with E : st_ok _ _ = _ |- _ => unfold st_ok in E; cbn in E end; lia.

Ltac step1 rest u :=
  destruct rest as [|u rest];
  [rewrite trace_loop_nil by (mid || discriminate); nowf|].

Lemma advance_trace_result b rest : is_byte b -> Forall is_byte rest ->
  trace_result b rest (dfa_advance_trace (b :: rest)).
Proof.
  intros Hb Hr. rewrite advance_trace_step by assumption. unfold is_byte in Hb.
  unfold first_val.
  destruct (b <? 128) eqn:E1; cbn [fst snd].
  { rewrite trace_loop_BGN. left. exists b, [], rest. repeat split. constructor; lia. }
  destruct (b <? 192) eqn:E2; cbn [fst snd]; [rewrite trace_loop_ERR; nowf|].
  destruct (b <? 194) eqn:E3; cbn [fst snd]; [rewrite trace_loop_ERR; nowf|].
  destruct (b <? 224) eqn:E4; cbn [fst snd].
  { step1 rest u. inversion Hr as [|? ? Hu Hr1]; subst.
    rewrite trace_loop_step by (mid || discriminate || assumption).
    destruct (st_ok CS1 u) eqn:Q1; [|nowf].
    change (st_next CS1) with BGN. rewrite trace_loop_BGN. left. eexists _, [u], rest.
    repeat split. unfold st_ok in Q1; cbn in Q1. constructor; lia. }
  destruct (b <? 225) eqn:E5; cbn [fst snd].
  { assert (b = 224) as -> by lia. step1 rest u. inversion Hr as [|? ? Hu Hr1]; subst.
    rewrite trace_loop_step by (mid || discriminate || assumption).
    destruct (st_ok P3A u) eqn:Q1; [|nowf]. change (st_next P3A) with CS1.
    step1 rest v. inversion Hr1 as [|? ? Hv Hr2]; subst.
    rewrite trace_loop_step by (mid || discriminate || assumption).
    destruct (st_ok CS1 v) eqn:Q2; [|nowf]. change (st_next CS1) with BGN.
    rewrite trace_loop_BGN. left. eexists _, [u; v], rest.
    split; [reflexivity|split; [|reflexivity]]. unfold st_ok in *; cbn in Q1, Q2. constructor; lia. }
  destruct (b <? 237) eqn:E6; cbn [fst snd].
  { step1 rest u. inversion Hr as [|? ? Hu Hr1]; subst.
    rewrite trace_loop_step by (mid || discriminate || assumption).
    destruct (st_ok CS2 u) eqn:Q1; [|nowf]. change (st_next CS2) with CS1.
    step1 rest v. inversion Hr1 as [|? ? Hv Hr2]; subst.
    rewrite trace_loop_step by (mid || discriminate || assumption).
    destruct (st_ok CS1 v) eqn:Q2; [|nowf]. change (st_next CS1) with BGN.
    rewrite trace_loop_BGN. left. eexists ((b - 224) * 4096 + (u - 128) * 64 + (v - 128)), [u; v], rest.
    unfold st_ok in *; cbn in Q1, Q2.
    split; [reflexivity|split; [constructor; lia|]]. cbn [payload]. do 3 f_equal. lia. }
  destruct (b <? 238) eqn:E7; cbn [fst snd].
  { assert (b = 237) as -> by lia. step1 rest u. inversion Hr as [|? ? Hu Hr1]; subst.
    rewrite trace_loop_step by (mid || discriminate || assumption).
    destruct (st_ok P3B u) eqn:Q1; [|nowf]. change (st_next P3B) with CS1.
    step1 rest v. inversion Hr1 as [|? ? Hv Hr2]; subst.
    rewrite trace_loop_step by (mid || discriminate || assumption).
    destruct (st_ok CS1 v) eqn:Q2; [|nowf]. change (st_next CS1) with BGN.
    rewrite trace_loop_BGN. left. eexists (53248 + (u - 128) * 64 + (v - 128)), [u; v], rest.
    unfold st_ok in *; cbn in Q1, Q2.
    split; [reflexivity|split; [constructor; lia|]]. cbn [payload]. do 3 f_equal. lia. }
  destruct (b <? 240) eqn:E8; cbn [fst snd].
  { step1 rest u. inversion Hr as [|? ? Hu Hr1]; subst.
    rewrite trace_loop_step by (mid || discriminate || assumption).
    destruct (st_ok CS2 u) eqn:Q1; [|nowf]. change (st_next CS2) with CS1.
    step1 rest v. inversion Hr1 as [|? ? Hv Hr2]; subst.
    rewrite trace_loop_step by (mid || discriminate || assumption).
    destruct (st_ok CS1 v) eqn:Q2; [|nowf]. change (st_next CS1) with BGN.
    rewrite trace_loop_BGN. left. eexists ((b - 224) * 4096 + (u - 128) * 64 + (v - 128)), [u; v], rest.
    unfold st_ok in *; cbn in Q1, Q2.
    split; [reflexivity|split; [constructor; lia|]]. cbn [payload]. do 3 f_equal. lia. }
  destruct (b <? 241) eqn:E9; cbn [fst snd].
  { assert (b = 240) as -> by lia. step1 rest u. inversion Hr as [|? ? Hu Hr1]; subst.
    rewrite trace_loop_step by (mid || discriminate || assumption).
    destruct (st_ok P4A u) eqn:Q1; [|nowf]. change (st_next P4A) with CS2.
    step1 rest v. inversion Hr1 as [|? ? Hv Hr2]; subst.
    rewrite trace_loop_step by (mid || discriminate || assumption).
    destruct (st_ok CS2 v) eqn:Q2; [|nowf]. change (st_next CS2) with CS1.
    step1 rest w. inversion Hr2 as [|? ? Hw Hr3]; subst.
    rewrite trace_loop_step by (mid || discriminate || assumption).
    destruct (st_ok CS1 w) eqn:Q3; [|nowf]. change (st_next CS1) with BGN.
    rewrite trace_loop_BGN. left.
    eexists ((u - 128) * 4096 + (v - 128) * 64 + (w - 128)), [u; v; w], rest.
    unfold st_ok in *; cbn in Q1, Q2, Q3.
    split; [reflexivity|split; [constructor; lia|]]. cbn [payload]. do 3 f_equal. lia. }
  destruct (b <? 244) eqn:E10; cbn [fst snd].
  { step1 rest u. inversion Hr as [|? ? Hu Hr1]; subst.
    rewrite trace_loop_step by (mid || discriminate || assumption).
    destruct (st_ok CS3 u) eqn:Q1; [|nowf]. change (st_next CS3) with CS2.
    step1 rest v. inversion Hr1 as [|? ? Hv Hr2]; subst.
    rewrite trace_loop_step by (mid || discriminate || assumption).
    destruct (st_ok CS2 v) eqn:Q2; [|nowf]. change (st_next CS2) with CS1.
    step1 rest w. inversion Hr2 as [|? ? Hw Hr3]; subst.
    rewrite trace_loop_step by (mid || discriminate || assumption).
    destruct (st_ok CS1 w) eqn:Q3; [|nowf]. change (st_next CS1) with BGN.
    rewrite trace_loop_BGN. left.
    eexists ((b - 240) * 262144 + (u - 128) * 4096 + (v - 128) * 64 + (w - 128)), [u; v; w], rest.
    unfold st_ok in *; cbn in Q1, Q2, Q3.
    split; [reflexivity|split; [constructor; lia|]]. cbn [payload]. do 3 f_equal. lia. }
  destruct (b <? 245) eqn:E11; cbn [fst snd].
  { assert (b = 244) as -> by lia. step1 rest u. inversion Hr as [|? ? Hu Hr1]; subst.
    rewrite trace_loop_step by (mid || discriminate || assumption).
    destruct (st_ok P4B u) eqn:Q1; [|nowf]. change (st_next P4B) with CS2.
    step1 rest v. inversion Hr1 as [|? ? Hv Hr2]; subst.
    rewrite trace_loop_step by (mid || discriminate || assumption).
    destruct (st_ok CS2 v) eqn:Q2; [|nowf]. change (st_next CS2) with CS1.
    step1 rest w. inversion Hr2 as [|? ? Hw Hr3]; subst.
    rewrite trace_loop_step by (mid || discriminate || assumption).
    destruct (st_ok CS1 w) eqn:Q3; [|nowf]. change (st_next CS1) with BGN.
    rewrite trace_loop_BGN. left.
    eexists (1048576 + (u - 128) * 4096 + (v - 128) * 64 + (w - 128)), [u; v; w], rest.
    unfold st_ok in *; cbn in Q1, Q2, Q3.
    split; [reflexivity|split; [constructor; lia|]]. cbn [payload]. do 3 f_equal. lia. }
  rewrite trace_loop_ERR. nowf.
Qed.

(** ** The validating decoder decides well-formedness *)
Lemma wf_inv_cons cs b rest : wf cs (b :: rest) ->
  exists c conts cs' rest', cs = c :: cs' /\ rest = conts ++ rest' /\ wf_seq c (b :: conts) /\ wf cs' rest'.
Proof.
  inversion 1 as [|c s cs' bs Hs Hw Heq1 Heq2]; subst.
  destruct (wf_seq_complete _ _ Hs) as (b' & conts & -> & _ & _ & _).
  cbn in Heq2. inversion Heq2; subst. eauto 9.
Qed.

Lemma convert_trace_correct f src : Forall is_byte src -> (length src < f)%nat ->
  (exists cs, dfa_convert_trace_loop f src = Ok (Some cs) /\ wf cs src) \/
  (dfa_convert_trace_loop f src = Ok None /\ forall cs, ~ wf cs src).
Proof.
  revert src. induction f as [|f IH]; intros src Hs Hf; [lia|].
  destruct src as [|b rest].
  { left. exists []. split; [reflexivity|constructor]. }
  inversion Hs as [|? ? Hb Hr]; subst. cbn [dfa_convert_trace_loop].
  destruct (advance_trace_result b rest Hb Hr) as
    [(c & conts & rest' & -> & HW & ->)|(c & rest' & -> & HN)]; cbn [bind].
  - change (negb (BGN =? ERR)) with true. cbv iota.
    apply Forall_app in Hr as [_ Hr']. cbn [length] in Hf. rewrite app_length in Hf.
    destruct (IH rest' Hr' ltac:(lia)) as [(cs & -> & Hcs)|[-> HNo]]; cbn [rmap option_map].
    + left. eexists. split; [reflexivity|].
      change (b :: conts ++ rest') with ((b :: conts) ++ rest'). constructor; assumption.
    + right. split; [reflexivity|]. intros cs HC.
      destruct (wf_inv_cons _ _ _ HC) as (c2 & conts2 & cs2 & rest2 & -> & Heq & HW2 & HC2).
      destruct (strict_det b _ _ _ _ _ _ Heq HW HW2) as [-> ->].
      apply app_inv_head in Heq. subst. exact (HNo _ HC2).
  - change (negb (ERR =? ERR)) with false. cbv iota.
    right. split; [reflexivity|]. intros cs HC.
    destruct (wf_inv_cons _ _ _ HC) as (c2 & conts2 & cs2 & rest2 & -> & Heq & HW2 & HC2).
    exact (HN _ _ _ Heq HW2).
Qed.

Lemma wf_det cs cs' bs : wf cs bs -> wf cs' bs -> cs = cs'.
Proof.
  intros H. revert cs'. induction H as [|c s cs bs Hs Hw IH]; intros cs' H'.
  - inversion H' as [|c s cs bs Hs Hw E1 E2]; [reflexivity|].
    destruct (wf_seq_complete _ _ Hs) as (b & conts & -> & _). discriminate.
  - destruct (wf_seq_complete _ _ Hs) as (b & conts & -> & _). cbn [app] in H'.
    destruct (wf_inv_cons _ _ _ H') as (c2 & conts2 & cs2 & rest2 & -> & Heq & HW2 & HC2).
    destruct (strict_det b _ _ _ _ _ _ Heq Hs HW2) as [-> ->].
    apply app_inv_head in Heq. subst. f_equal. apply IH. assumption.
Qed.

Lemma convert_trace_iff src : Forall is_byte src ->
  forall cs, dfa_convert_trace src = Ok (Some cs) <-> wf cs src.
Proof.
  intros Hs cs. unfold dfa_convert_trace.
  destruct (convert_trace_correct (S (length src)) src Hs ltac:(lia)) as [(cs' & -> & HW)|[-> HN]].
  - split; [intros [= <-]; assumption|]. intros HC. rewrite (wf_det _ _ _ HC HW). reflexivity.
  - split; [discriminate|]. intros HC. destruct (HN _ HC).
Qed.

Lemma convert_trace_total src : Forall is_byte src -> exists r, dfa_convert_trace src = Ok r.
Proof.
  intros Hs. unfold dfa_convert_trace.
  destruct (convert_trace_correct (S (length src)) src Hs ltac:(lia)) as [(cs' & -> & HW)|[-> HN]]; eauto.
Qed.

(** ** The replacing DFA decoder *)
Definition dfa_first_state (b : Z) : Z := snd (first_val b).

Lemma dfa_first_unit b : 128 <= b < 256 ->
  rdz dfa_first_unit_table (b - 128) =
    Ok (fst (first_unit_val b), dfa_first_state b, snd (first_unit_val b)).
Proof.
  intros Hb.
  set (chk := fun b => negb (128 <=? b) || match rdz dfa_first_unit_table (b - 128) with
     | Ok (x, y, z) => (x =? fst (first_unit_val b)) && (y =? dfa_first_state b)
                       && (z =? snd (first_unit_val b))
     | _ => false end).
  assert (H : chk b = true) by (apply byte_sweep; [vm_compute; reflexivity|lia]).
  unfold chk in H. destruct (128 <=? b) eqn:E; [|lia]. cbn [negb orb] in H.
  destruct (rdz dfa_first_unit_table (b - 128)) as [[[x y] z]| | |]; try discriminate.
  apply andb_true_iff in H as [H H3]. apply andb_true_iff in H as [H1 H2].
  apply Z.eqb_eq in H1, H2, H3. subst. reflexivity.
Qed.

Definition dstep (b : Z) (src1 : list Z) : Z * list Z :=
  if b <? 128 then (b, src1)
  else
    let '(p, size) := first_unit_val b in
    let st := dfa_first_state b in
    if size =? 2 then
      match src1 with
      | u :: r => if st_ok st u then (payload p [u], r) else (65533, src1)
      | _ => (65533, src1)
      end
    else if size =? 3 then
      match src1 with
      | u :: v :: r => if st_ok st u && contb v then (payload p [u; v], r) else (65533, src1)
      | _ => (65533, src1)
      end
    else if size =? 4 then
      match src1 with
      | u :: v :: w :: r =>
        if st_ok st u && contb v && contb w then (payload p [u; v; w], r) else (65533, src1)
      | _ => (65533, src1)
      end
    else (65533, src1).

Lemma dfa_state_by_size b : 128 <= b < 256 ->
  let st := dfa_first_state b in let size := snd (first_unit_val b) in
  (size = 0 /\ st = ERR) \/ (size = 2 /\ st = CS1) \/
  (size = 3 /\ (st = CS2 \/ st = P3A \/ st = P3B)) \/
  (size = 4 /\ (st = CS3 \/ st = P4A \/ st = P4B)).
Proof.
  intros Hb. unfold dfa_first_state, first_val, first_unit_val.
  repeat match goal with |- context [if ?c then _ else _] => destruct c eqn:? end;
    cbn [snd fst]; try lia; tauto.
Qed.

Lemma st_go_ERR u : is_byte u -> st_go ERR u = ERR.
Proof. intros. unfold st_go. destruct (st_ok ERR u); reflexivity. Qed.

Lemma st_ok_CS u : st_ok CS1 u = contb u /\ st_ok CS2 u = contb u /\ st_ok CS3 u = contb u.
Proof. repeat split. Qed.

Lemma dfa_switch_step b src1 :
  128 <= b < 256 -> Forall is_byte src1 ->
  lead_len b - 1 <= Z.of_nat (length src1) ->
  dfa_switch (snd (first_unit_val b)) src1 (dfa_first_state b) (fst (first_unit_val b))
    = Ok (dstep b src1).
Proof.
  intros Hb Hs Hlen. unfold dstep, lead_len in *.
  destruct (b <? 128) eqn:E; [lia|].
  pose proof (dfa_state_by_size b Hb) as ST. cbv zeta in ST.
  destruct (first_unit_val b) as [p size]; cbn [snd fst] in *.
  destruct ST as [[-> ST]|[[-> ST]|[[-> ST]|[-> ST]]]]; cbn [Z.eqb Pos.eqb].
  - reflexivity.
  - rewrite ST. change (dfa_switch 2 src1 CS1 p) with (dfa_advance_2 src1 CS1 p). unfold dfa_advance_2.
    destruct src1 as [|u r]; [cbn in Hlen; lia|].
    apply Forall_inv in Hs as Hu. unfold rd; cbn [nth_error bind].
    pose proof (dfa_mid_trans CS1 u ltac:(mid) Hu) as T1.
    destruct (dfa_cat u) as [t| | |]; cbn [bind] in *; try discriminate. rewrite T1. cbn [bind].
    unfold st_go. destruct (st_ok CS1 u) eqn:Q1.
    + change (st_next CS1 =? ERR) with false. cbv iota.
      rewrite comb2 by (eapply st_ok_cont; [|eassumption]; mid). reflexivity.
    + reflexivity.
  - change (dfa_switch 3 src1 (dfa_first_state b) p) with (dfa_advance_3 src1 (dfa_first_state b) p).
    unfold dfa_advance_3.
    destruct src1 as [|u [|v r]]; try (cbn in Hlen; lia).
    inversion Hs as [|? ? Hu Hs']; subst. inversion Hs' as [|? ? Hv Hs'']; subst.
    unfold rd; cbn [nth_error bind].
    assert (IN : In (dfa_first_state b) mid_states) by (destruct ST as [->|[->| ->]]; mid).
    assert (NX : st_next (dfa_first_state b) = CS1) by (destruct ST as [->|[->| ->]]; reflexivity).
    pose proof (dfa_mid_trans (dfa_first_state b) u IN Hu) as T1.
    destruct (dfa_cat u) as [t| | |]; cbn [bind] in *; try discriminate. rewrite T1. cbn [bind].
    assert (IN2 : In (st_go (dfa_first_state b) u) mid_states).
    { unfold st_go. destruct (st_ok _ _); [rewrite NX|]; mid. }
    pose proof (dfa_mid_trans _ v IN2 Hv) as T2.
    destruct (dfa_cat v) as [t2| | |]; cbn [bind] in *; try discriminate. rewrite T2. cbn [bind].
    unfold st_go at 2. destruct (st_ok (dfa_first_state b) u) eqn:Q1.
    + rewrite NX. unfold st_go. change (st_ok CS1 v) with (contb v). destruct (contb v) eqn:Q2.
      * change (st_next CS1 =? ERR) with false. cbn [andb]. cbv iota.
        rewrite comb3; [reflexivity| |apply contb_cont; assumption].
        exact (st_ok_cont _ _ IN Q1).
      * reflexivity.
    + rewrite st_go_ERR by assumption. reflexivity.
  - change (dfa_switch 4 src1 (dfa_first_state b) p) with (dfa_advance_4 src1 (dfa_first_state b) p).
    unfold dfa_advance_4.
    destruct src1 as [|u [|v [|w r]]]; try (cbn in Hlen; lia).
    inversion Hs as [|? ? Hu Hs']; subst. inversion Hs' as [|? ? Hv Hs'']; subst.
    inversion Hs'' as [|? ? Hw Hs3]; subst.
    unfold rd; cbn [nth_error bind].
    assert (IN : In (dfa_first_state b) mid_states) by (destruct ST as [->|[->| ->]]; mid).
    assert (NX : st_next (dfa_first_state b) = CS2) by (destruct ST as [->|[->| ->]]; reflexivity).
    pose proof (dfa_mid_trans (dfa_first_state b) u IN Hu) as T1.
    destruct (dfa_cat u) as [t| | |]; cbn [bind] in *; try discriminate. rewrite T1. cbn [bind].
    assert (IN2 : In (st_go (dfa_first_state b) u) mid_states).
    { unfold st_go. destruct (st_ok _ _); [rewrite NX|]; mid. }
    pose proof (dfa_mid_trans _ v IN2 Hv) as T2.
    destruct (dfa_cat v) as [t2| | |]; cbn [bind] in *; try discriminate. rewrite T2. cbn [bind].
    assert (IN3 : In (st_go (st_go (dfa_first_state b) u) v) mid_states).
    { unfold st_go at 2. destruct (st_ok _ _); [rewrite NX|]; unfold st_go; destruct (st_ok _ _); mid. }
    pose proof (dfa_mid_trans _ w IN3 Hw) as T3.
    destruct (dfa_cat w) as [t3| | |]; cbn [bind] in *; try discriminate. rewrite T3. cbn [bind].
    unfold st_go at 3. destruct (st_ok (dfa_first_state b) u) eqn:Q1.
    + rewrite NX. unfold st_go at 2. change (st_ok CS2 v) with (contb v). destruct (contb v) eqn:Q2.
      * change (st_next CS2) with CS1. unfold st_go. change (st_ok CS1 w) with (contb w).
        destruct (contb w) eqn:Q3.
        -- change (st_next CS1 =? ERR) with false. cbn [andb]. cbv iota.
           rewrite comb4; [reflexivity| |apply contb_cont; assumption|apply contb_cont; assumption].
           exact (st_ok_cont _ _ IN Q1).
        -- reflexivity.
      * rewrite st_go_ERR by assumption. reflexivity.
    + rewrite !st_go_ERR by assumption. reflexivity.
Qed.

Lemma dfa_tail_step f b src1 :
  is_byte b -> Forall is_byte src1 ->
  dfa_tail (S f) (b :: src1) =
    if lead_len b - 1 >? Z.of_nat (length src1) then Ok [65533]
    else rmap (cons (fst (dstep b src1))) (dfa_tail f (snd (dstep b src1))).
Proof.
  intros Hb Hs. unfold is_byte in Hb. cbn [dfa_tail].
  destruct (b <? 128) eqn:E.
  - unfold lead_len, dstep. rewrite E. cbn [fst snd].
    destruct (1 - 1 >? Z.of_nat (length src1)) eqn:F; [lia|reflexivity].
  - rewrite dfa_first_unit by lia. cbn [bind].
    assert (L : lead_len b = snd (first_unit_val b)) by (unfold lead_len; rewrite E; reflexivity).
    rewrite <- L.
    destruct (lead_len b - 1 >? Z.of_nat (length src1)) eqn:F; [reflexivity|].
    rewrite L. rewrite dfa_switch_step by (try assumption; lia). cbn [bind].
    destruct (dstep b src1) as [c r]; reflexivity.
Qed.

Lemma dfa_head_step f b src1 :
  is_byte b -> Forall is_byte src1 -> (3 <= length src1)%nat ->
  dfa_head (S f) (b :: src1) =
    rmap (cons (fst (dstep b src1))) (dfa_head f (snd (dstep b src1))).
Proof.
  intros Hb Hs Hl. unfold is_byte in Hb. cbn [dfa_head].
  destruct (Z.of_nat (length (b :: src1)) >? 3) eqn:E0; [|cbn [length] in E0; lia].
  unfold rd; cbn [nth_error bind skipn].
  destruct (b <? 128) eqn:E.
  - unfold dstep. rewrite E. reflexivity.
  - rewrite dfa_first_unit by lia. cbn [bind].
    assert (L : lead_len b = snd (first_unit_val b)) by (unfold lead_len; rewrite E; reflexivity).
    pose proof (first_unit_size b ltac:(lia)) as FS.
    rewrite dfa_switch_step by (try assumption; lia). cbn [bind].
    destruct (dstep b src1) as [c r]; reflexivity.
Qed.

Lemma dfa_head_tail f src :
  (length src <= 3)%nat -> dfa_head (S f) src = dfa_tail (S f) src.
Proof.
  intros H. cbn [dfa_head].
  destruct (Z.of_nat (length src) >? 3) eqn:E; [lia|reflexivity].
Qed.

Ltac nostrict := right; split; [reflexivity|];
  let H := fresh "H" in let W := fresh "W" in
  intros ? ? ? H W; inversion W; subst; try (exfalso; lia); try (cbn in H; inversion H; subst);
  try (exfalso; lia);
  repeat match goal with
         | E : st_ok _ _ = _ |- _ => unfold st_ok in E; cbn in E
         | E : context [st_ok _ _] |- _ => unfold st_ok in E; cbn in E
         | E : context [contb _] |- _ => unfold contb in E end; exfalso; lia.

Lemma dstep_shape b src1 : is_byte b ->
  (exists conts r, src1 = conts ++ r /\ complete_strict b conts (fst (dstep b src1)) /\
                   snd (dstep b src1) = r) \/
  (dstep b src1 = (65533, src1) /\ forall conts r c, src1 = conts ++ r -> ~ complete_strict b conts c).
Proof.
  intros Hb. unfold is_byte in Hb. unfold dstep, complete_strict, dfa_first_state, first_val, first_unit_val.
  destruct (b <? 128) eqn:E1.
  { left. exists [], src1. split; [reflexivity|]. split; [|reflexivity]. constructor. lia. }
  destruct (b <? 192) eqn:E2; [cbn [Z.eqb Pos.eqb]; nostrict|].
  destruct (b <? 194) eqn:E3; [cbn [Z.eqb Pos.eqb]; nostrict|].
  destruct (b <? 224) eqn:E4.
  { cbn [Z.eqb Pos.eqb snd]. destruct src1 as [|u r]; [nostrict|].
    destruct (st_ok CS1 u) eqn:Q; [|nostrict].
    left. exists [u], r. split; [reflexivity|split; [|reflexivity]]. unfold st_ok in Q; cbn in Q.
    cbn [fst payload]. constructor; lia. }
  destruct (b <? 240) eqn:E8.
  { cbn [Z.eqb Pos.eqb]. destruct src1 as [|u [|v r]]; [nostrict|nostrict|].
    destruct (b <? 225) eqn:E5; [|destruct (b <? 237) eqn:E6; [|destruct (b <? 238) eqn:E7]]; cbn [snd];
    (match goal with |- context [st_ok ?st u && contb v] => destruct (st_ok st u && contb v) eqn:Q end;
      [|nostrict]; left; exists [u; v], r; (split; [reflexivity|split; [|reflexivity]]);
      apply andb_true_iff in Q as [Q1 Q2]; unfold st_ok in Q1; cbn in Q1; unfold contb in Q2; cbn [fst payload]).
    - assert (b = 224) as -> by lia. constructor; lia.
    - replace (_ + _) with ((b - 224) * 4096 + (u - 128) * 64 + (v - 128)) by lia. constructor; lia.
    - assert (b = 237) as -> by lia.
      replace (_ + _) with (53248 + (u - 128) * 64 + (v - 128)) by lia. constructor; lia.
    - replace (_ + _) with ((b - 224) * 4096 + (u - 128) * 64 + (v - 128)) by lia. constructor; lia. }
  destruct (b <? 225) eqn:E5; [lia|]. destruct (b <? 237) eqn:E6; [lia|]. destruct (b <? 238) eqn:E7; [lia|].
  destruct (b <? 245) eqn:E11.
  { cbn [Z.eqb Pos.eqb]. destruct src1 as [|u [|v [|w r]]]; [nostrict|nostrict|nostrict|].
    destruct (b <? 241) eqn:E9; [|destruct (b <? 244) eqn:E10]; cbn [snd];
    (match goal with |- context [st_ok ?st u && contb v && contb w] =>
           destruct (st_ok st u && contb v && contb w) eqn:Q end;
      [|nostrict]; left; exists [u; v; w], r; (split; [reflexivity|split; [|reflexivity]]);
      apply andb_true_iff in Q as [Q Q3]; apply andb_true_iff in Q as [Q1 Q2];
      unfold st_ok in Q1; cbn in Q1; unfold contb in Q2, Q3; cbn [fst payload]).
    - assert (b = 240) as -> by lia.
      replace (_ + _) with ((u - 128) * 4096 + (v - 128) * 64 + (w - 128)) by lia. constructor; lia.
    - replace (_ + _) with ((b - 240) * 262144 + (u - 128) * 4096 + (v - 128) * 64 + (w - 128)) by lia.
      constructor; lia.
    - assert (b = 244) as -> by lia.
      replace (_ + _) with (1048576 + (u - 128) * 4096 + (v - 128) * 64 + (w - 128)) by lia.
      constructor; lia. }
  cbn [Z.eqb Pos.eqb]. nostrict.
Qed.

Lemma dfa_convert_outcome src : Forall is_byte src ->
  exists cs, dfa_convert src = Ok cs /\ g_outcome complete_strict src cs.
Proof.
  intros Hs. unfold dfa_convert.
  apply (g_head_outcome dstep complete_strict dfa_head dfa_tail).
  - apply dstep_shape.
  - intros b conts c Hb HC. apply (complete_lead_len b conts c Hb). apply strict_complete, HC.
  - reflexivity.
  - apply dfa_tail_step.
  - apply dfa_head_tail.
  - apply dfa_head_step.
  - assumption.
  - lia.
Qed.

(** Relating well-formed input to replacement decoding. *)
Lemma wf_repl_strict cs bs : wf cs bs -> repl complete_strict bs cs.
Proof.
  induction 1 as [|c s cs bs Hs Hw IH]; [constructor|].
  destruct (wf_seq_complete _ _ Hs) as (b & conts & -> & _). cbn [app].
  apply repl_good; assumption.
Qed.

(** ** Consequences used by the property file *)
Lemma decode_replaces src cs : Forall is_byte src ->
  (forall p q, src = p ++ q -> truncated_at p q -> q = []) ->
  (utf8_decode src = Ok cs <-> repl complete src cs).
Proof.
  intros Hs HT. destruct (utf8_decode_outcome src Hs) as (cs' & -> & _ & _ & p & q & Heq & HR & HQ).
  assert (q = []) as ->.
  { destruct HQ as [->|HQ]; [reflexivity|]. exact (HT p q Heq HQ). }
  rewrite app_nil_r in Heq. subst p. split.
  - intros [= <-]. assumption.
  - intros HR'. f_equal. eapply repl_det; [|exact HR|exact HR'].
    intros. eapply complete_det; eassumption.
Qed.

Lemma decode_loss src : Forall is_byte src ->
  exists cs p q, utf8_decode src = Ok cs /\ src = p ++ q /\ (length q <= 2)%nat /\ repl complete p cs.
Proof.
  intros Hs. destruct (utf8_decode_outcome src Hs) as (cs' & HE & _ & _ & p & q & Heq & HR & HQ).
  exists cs', p, q. repeat split; try assumption.
  destruct HQ as [->|(p' & b & n & pl & _ & HL & Hn)]; [cbn; lia|].
  inversion HL; subst; lia.
Qed.

Lemma dfa_replaces src cs : Forall is_byte src ->
  (forall p q, src = p ++ q -> truncated_at p q -> q = []) ->
  (dfa_convert src = Ok cs <-> repl complete_strict src cs).
Proof.
  intros Hs HT. destruct (dfa_convert_outcome src Hs) as (cs' & -> & _ & p & q & Heq & HR & HQ).
  assert (q = []) as ->.
  { destruct HQ as [->|HQ]; [reflexivity|]. exact (HT p q Heq HQ). }
  rewrite app_nil_r in Heq. subst p. split.
  - intros [= <-]. assumption.
  - intros HR'. f_equal. eapply repl_det; [|exact HR|exact HR'].
    intros. eapply strict_det; eassumption.
Qed.

Lemma lost_ascii : exists src cs, Forall is_byte src /\ repl complete src cs /\
  utf8_decode src <> Ok cs /\ In 65 src /\ (exists out, utf8_decode src = Ok out /\ ~ In 65 out).
Proof.
  exists [228; 65], [65533; 65]. split; [repeat constructor; unfold is_byte; lia|]. split; [|split; [|split]].
  - apply repl_bad.
    + intros conts r c Heq (n & p & HL & Hlen & HF & _).
      assert (n = 3%nat) as -> by (inversion HL; subst; lia).
      destruct conts as [|x [|y conts]]; try (cbn in Hlen; lia). cbn in Heq. inversion Heq.
    + apply (repl_good complete 65 [] 65 [] []); [|constructor].
      exists 1%nat, 65. repeat split; [constructor; lia|constructor].
  - vm_compute. discriminate.
  - cbn; tauto.
  - exists [65533]. split; [vm_compute; reflexivity|]. cbn. lia.
Qed.

Lemma silent_overlong : exists src cs, Forall is_byte src /\ utf8_decode src = Ok cs /\
  ~ In 65533 cs /\ forall cs', ~ wf cs' src.
Proof.
  exists [224; 128; 128], [0]. split; [repeat constructor; unfold is_byte; lia|].
  split; [vm_compute; reflexivity|]. split; [cbn; lia|].
  intros cs' H. destruct (wf_inv_cons _ _ _ H) as (c & conts & cs2 & rest & _ & Heq & HW & _).
  inversion HW; subst; cbn in Heq; inversion Heq; subst; lia.
Qed.

Lemma encode_inj s t : Forall code_point s -> Forall code_point t ->
  utf8_encode s = utf8_encode t -> s = t.
Proof.
  intros Hs Ht H. pose proof (utf8_round_trip s Hs) as A. pose proof (utf8_round_trip t Ht) as B.
  rewrite H in A. rewrite A in B. congruence.
Qed.

Lemma encode_out_of_range s t x : 1114111 < x ->
  utf8_encode (s ++ x :: t) = utf8_encode (s ++ 65533 :: t).
Proof.
  intros Hx. rewrite !utf8_encode_ok. f_equal.
  induction s as [|y s IH]; cbn [app greedy_encode].
  - f_equal. rewrite !encode_one_arith by lia. unfold enc_arith. cbn.
    destruct (x <? 128) eqn:?; [lia|]. destruct (x <=? 2047) eqn:?; [lia|].
    destruct (x <=? 65535) eqn:?; [lia|]. destruct (x <=? 1114111) eqn:?; [lia|]. reflexivity.
  - f_equal. exact IH.
Qed.
