(** C34 (how pmap splits its input) and C35 (pmap is map, on every schedule). *)
From Verif Require Import Base ListAux PmapModel PmapSpec PmapProofs PmapRun.

(** ** C34 *)

(** With [T] threads asked for (the pool's threads and the caller when nothing is asked for)
    and groups of [G], an input of whole groups is cut into consecutive non-empty chunks that
    cover it, min(T, number of groups) of them, each of whole groups, no two differing by more
    than one group. *)
Theorem C34_split : forall nw E g n,
  let T := if E <=? 0 then nw + 1 else E in
  let G := if g <=? 0 then 1 else g in
  0 <= nw -> T <= max_tasks -> 0 < n <= max_tasks -> n mod G = 0 ->
  exists chunks, plan nw E g n = Ok chunks /\ fair_split T G n chunks /\
    Z.of_nat (length chunks) = Z.min T (n / G).
Proof. intros. apply plan_ok; assumption. Qed.
Print Assumptions C34_split.

(** An input that is not made of whole groups is refused. *)
Theorem C34_partial_group : forall nw E g n,
  let G := if g <=? 0 then 1 else g in
  0 < n <= max_tasks -> n mod G <> 0 -> plan nw E g n = Exn CheckFailed.
Proof. intros. apply plan_bad_group; assumption. Qed.
Print Assumptions C34_partial_group.

(** The bound on the thread number is needed: asking for INT64_MAX threads overflows. *)
Theorem C34_threads_refuted : forall nw g n, 0 < n <= max_tasks ->
  let G := if g <=? 0 then 1 else g in
  n mod G = 0 -> 2 <= n / G -> plan nw (two63 - 1) g n = UB.
Proof.
  intros nw g n Hn G Hg H2. unfold plan. replace (two63 - 1 <=? 0) with false by reflexivity. fold G.
  assert (HG : 0 < G) by (unfold G; destruct (g <=? 0) eqn:?; lia). unfold max_tasks, two63 in *. clearbody G.
  unfold crem64, cdiv64. unfold two63. replace (G =? 0) with false by lia.
  replace ((n =? - 2 ^ 63) && (G =? -1)) with false by lia. cbn [bind].
  rewrite Z.rem_mod_nonneg by lia. rewrite Hg. cbn [Z.eqb negb].
  rewrite Z.quot_div_nonneg by lia. cbn [bind].
  unfold chk64, int64b, two63. set (m := n / G) in *. clearbody m.
  replace ((_ <=? _) && (m + (2 ^ 63 - 1) <? 2 ^ 63)) with false by lia. reflexivity.
Qed.
Print Assumptions C34_threads_refuted.

(** ** C35 *)


Lemma pmap_start {V} (inputs : list V) nw E g : inputs <> [] ->
  threads_of (Z.of_nat nw) E <= max_tasks -> Z.of_nat (length inputs) <= max_tasks ->
  Z.of_nat (length inputs) mod group_of g = 0 ->
  exists chunks, plan (Z.of_nat nw) E g (Z.of_nat (length inputs)) = Ok chunks /\
    chain 0 (length inputs) (map range chunks) /\ map range chunks <> [] /\
    Z.of_nat (length chunks) = Z.min (threads_of (Z.of_nat nw) E) (Z.of_nat (length inputs) / group_of g).
Proof.
  intros NE HT HN HG. assert (0 < Z.of_nat (length inputs)) by (destruct inputs; [congruence|cbn [length]; lia]).
  destruct (plan_ok (Z.of_nat nw) E g (Z.of_nat (length inputs))) as (ch & EP & (HC & _) & HL); try lia; try exact HG.
  exists ch. split; [exact EP|]. split; [|split; [|exact HL]].
  - pose proof (covers_chain _ _ _ (Z.le_refl 0) HC) as H1. rewrite Nat2Z.id in H1. exact H1.
  - destruct ch; [cbn in HC; lia|discriminate].
Qed.
Lemma pool_ok (nw : nat) E g (n : Z) (chunks : list (Z * Z)) :
  (1 <= nw)%nat \/ threads_of (Z.of_nat nw) E = 1 -> 0 < n -> n mod group_of g = 0 ->
  Z.of_nat (length chunks) = Z.min (threads_of (Z.of_nat nw) E) (n / group_of g) ->
  (1 <= nw)%nat \/ length (map range chunks) = 1%nat.
Proof.
  intros [H|H] Hn Hg HL; [left; exact H|right]. rewrite map_length. rewrite H in HL.
  assert (HG : 0 < group_of g) by (unfold group_of; destruct (g <=? 0) eqn:?; lia).
  assert (1 <= n / group_of g); [|lia]. pose proof (Z.div_mod n (group_of g)).
  destruct (Z.le_gt_cases (n / group_of g) 0); [exfalso|lia].
  pose proof (Z.mul_le_mono_nonneg_l (n / group_of g) 0 (group_of g)). lia.
Qed.

(** Whatever the schedule, pmap never reads or writes out of bounds, and if it has returned,
    it has returned what [[f(x) for x in inputs]] gives: the results in order, or the exception
    of the first element that fails. [op] is the callable applied to an argument list; an item
    of pstarmap that is no argument list fails with [bad_item]. *)
Theorem C35_pmap_is_map :
  forall (V X : Type) (op : list V -> V + X) as_args bad_item none k nw seq nested unpack E g inputs sched,
  let T := if E <=? 0 then Z.of_nat nw + 1 else E in
  let G := if g <=? 0 then 1 else g in
  let f x := if unpack : bool then match as_args x with Some args => op args | None => inr bad_item end
             else op [x] in
  (1 <= nw)%nat \/ T = 1 -> T <= max_tasks -> Z.of_nat (length inputs) <= max_tasks ->
  Z.of_nat (length inputs) mod G = 0 ->
  exists r, pmap op as_args bad_item none k nw seq nested unpack E g inputs sched = Ok r /\
    (r = None \/ r = Some (serial_map f inputs)).
Proof.
  intros V X op as_args bad_item none k nw sq nested unpack E g inputs sched T G f HP HT HN HG.
  unfold pmap. destruct (Nat.eqb_spec (length inputs) 0) as [L|L].
  { destruct inputs; [|discriminate]. eexists. split; [reflexivity|]. right. reflexivity. }
  destruct (pmap_start inputs nw E g) as (ch & EP & CH & NE & HL); try assumption; [intros ->; apply L; reflexivity|].
  rewrite EP. cbn [bind]. assert (PO := pool_ok nw E g (Z.of_nat (length inputs)) ch HP ltac:(lia) HG HL).
  destruct (exec_inv op as_args bad_item none k sq unpack inputs _ nw CH NE PO sched
    (start none k nw nested ch inputs)) as (s & ES & I).
  { apply start_inv; [exact CH|exact PO|reflexivity]. }
  rewrite ES. cbn [bind]. eexists. split; [reflexivity|].
  destruct (result s) as [r|] eqn:ER; [right|left; reflexivity]. f_equal.
  exact (result_ok op as_args bad_item none k unpack inputs _ nw CH s r I ER).
Qed.
Print Assumptions C35_pmap_is_map.

(** On every schedule that keeps letting every thread run, pmap does return. *)
Theorem C35_pmap_returns :
  forall (V X : Type) (op : list V -> V + X) as_args bad_item none k nw seq nested unpack E g inputs (sched : nat -> thread),
  let T := if E <=? 0 then Z.of_nat nw + 1 else E in
  let G := if g <=? 0 then 1 else g in
  let f x := if unpack : bool then match as_args x with Some args => op args | None => inr bad_item end
             else op [x] in
  (1 <= nw)%nat \/ T = 1 -> T <= max_tasks -> Z.of_nat (length inputs) <= max_tasks ->
  Z.of_nat (length inputs) mod G = 0 ->
  (forall i, exists j, (i <= j)%nat /\ sched j = TMain) ->
  (forall w i, (w < nw)%nat -> exists j, (i <= j)%nat /\ sched j = TWorker w) ->
  exists N, pmap op as_args bad_item none k nw seq nested unpack E g inputs (map sched (List.seq 0 N)) =
    Ok (Some (serial_map f inputs)).
Proof.
  intros V X op as_args bad_item none k nw sq nested unpack E g inputs sched T G f HP HT HN HG FM FW.
  unfold pmap. destruct (Nat.eqb_spec (length inputs) 0) as [L|L].
  { destruct inputs; [|discriminate]. exists 0%nat. reflexivity. }
  destruct (pmap_start inputs nw E g) as (ch & EP & CH & NE & HL); try assumption; [intros ->; apply L; reflexivity|].
  rewrite EP. cbn [bind]. assert (PO := pool_ok nw E g (Z.of_nat (length inputs)) ch HP ltac:(lia) HG HL).
  pose proof (start_inv op as_args bad_item none k unpack inputs _ nw CH PO nested ch eq_refl) as I0.
  destruct (fair_completes op as_args bad_item none k sq unpack inputs _ nw CH NE PO sched (conj FM FW)
    _ _ 0%nat I0 (Nat.le_refl _)) as (N & s & ES & I & R).
  exists N. rewrite ES. cbn [bind]. destruct (result s) as [r|] eqn:ER; [|congruence]. do 2 f_equal.
  exact (result_ok op as_args bad_item none k unpack inputs _ nw CH s r I ER).
Qed.
Print Assumptions C35_pmap_returns.

(** At no point of any schedule is a task in two hands: queued or running, each task appears
    once. *)
Theorem C35_one_runner :
  forall (V X : Type) (op : list V -> V + X) as_args bad_item none k nw seq nested unpack E g inputs sched chunks s,
  let T := if E <=? 0 then Z.of_nat nw + 1 else E in
  let G := if g <=? 0 then 1 else g in
  (1 <= nw)%nat \/ T = 1 -> T <= max_tasks -> 0 < Z.of_nat (length inputs) <= max_tasks ->
  Z.of_nat (length inputs) mod G = 0 ->
  plan (Z.of_nat nw) E g (Z.of_nat (length inputs)) = Ok chunks ->
  exec op as_args bad_item k seq unpack inputs (start none k nw nested chunks inputs) sched = Ok s ->
  NoDup ((match main s with MRunFirst => [0%nat] | MRunAll i => [i] | _ => [] end) ++
         concat (queues s) ++
         concat (map (fun w : option nat => match w with Some i => [i] | None => [] end) (workers s))).
Proof.
  intros V X op as_args bad_item none k nw sq nested unpack E g inputs sched chunks s T G HP HT HN HG EP ES.
  destruct (pmap_start inputs nw E g) as (ch & EP' & CH & NE & HL); try assumption; try lia; [intros ->; cbn in HN; lia|].
  rewrite EP in EP'. injection EP' as <-. assert (PO := pool_ok nw E g (Z.of_nat (length inputs)) chunks HP ltac:(lia) HG HL).
  destruct (exec_inv op as_args bad_item none k sq unpack inputs _ nw CH NE PO sched
    (start none k nw nested chunks inputs)) as (s' & ES' & I).
  { apply start_inv; [exact CH|exact PO|reflexivity]. }
  rewrite ES in ES'. injection ES' as <-. exact (busy_nodup op as_args bad_item k unpack inputs _ nw PO s I).
Qed.
Print Assumptions C35_one_runner.

(** A pool of no threads, asked for more than one thread: the lock-based one never returns, on
    any schedule; the lock-free one divides by zero. *)
Theorem C35_no_threads_refuted :
  forall (V X : Type) (op : list V -> V + X) as_args bad_item none seq unpack E g inputs sched,
  let G := if g <=? 0 then 1 else g in
  2 <= E <= max_tasks -> Z.of_nat (length inputs) <= max_tasks ->
  Z.of_nat (length inputs) mod G = 0 -> 2 <= Z.of_nat (length inputs) / G ->
  (forall r, pmap op as_args bad_item none LockBased 0 seq false unpack E g inputs sched = Ok r -> r = None) /\
  pmap op as_args bad_item none LockFree 0 seq false unpack E g inputs [TMain] = UB.
Proof.
  intros V X op as_args bad_item none sq unpack E g inputs sched G HE HN HG H2.
  assert (L : length inputs <> 0%nat) by (intros L; rewrite L in H2; change (Z.of_nat 0) with 0 in H2; rewrite Z.div_0_l in H2; [lia|];
    unfold G; destruct (g <=? 0) eqn:?; lia).
  assert (ET : threads_of (Z.of_nat 0) E = E) by (unfold threads_of; destruct (E <=? 0) eqn:?; lia).
  destruct (pmap_start inputs 0 E g) as (ch & EP & CH & NE & HL); try assumption; [intros ->; apply L; reflexivity|rewrite ET; lia|].
  fold G in HL. assert (L2 : (2 <= length ch)%nat).
  { rewrite ET in HL. change (group_of g) with G in HL. lia. }
  assert (L0 : Nat.eqb (length inputs) 0 = false) by (apply Nat.eqb_neq; exact L).
  unfold pmap. rewrite L0, EP. cbn [bind]. split.
  - intros r H. destruct (exec op as_args bad_item LockBased sq unpack inputs (start none LockBased 0 false ch inputs) sched) as [s| | |] eqn:ES;
      cbn [bind] in H; try discriminate. injection H as <-.
    assert (S : stuck s).
    { eapply stuck_exec; [exact none| |exact ES]. split; [reflexivity|]. split; [reflexivity|]. split; [|cbn; lia].
      destruct ch as [|c0 [|c1 ch]]; cbn in L2; try lia. exists (mk_task c1). split; reflexivity. }
    destruct S as (_ & _ & _ & S). unfold result. destruct (main s); try reflexivity. contradiction.
  - cbn [exec step]. unfold main_step, start. cbn [main tasks workers length repeat].
    rewrite map_length. destruct (Nat.ltb_spec 1 (length ch)); [|lia]. reflexivity.
Qed.
Print Assumptions C35_no_threads_refuted.

(** ** Non-vacuity *)

(** Ten items in groups of two for three threads: 4, 4 and 2. *)
Example C34_example : plan 2 0 2 10 = Ok [(0, 4); (4, 4); (8, 2)].
Proof. reflexivity. Qed.

(** Three items on two workers; and the same with two failures: the first element's exception
    wins although it happens last. *)
Definition ex_op (args : list Z) : Z + Z :=
  match args with [x] => if x >? 20 then inr x else inl (x * 2) | _ => inr 0 end.
Example C35_example :
  pmap ex_op (fun _ => None) 0 0 LockFree 2 0 false false 0 0 [1; 2; 3]
    (repeat TMain 4 ++ repeat (TWorker 0) 5 ++ repeat TMain 10 ++ repeat (TWorker 1) 5 ++ repeat TMain 10)
    = Ok (Some (inl [2; 4; 6])) /\
  pmap ex_op (fun _ => None) 0 0 LockBased 2 0 false false 0 0 [1; 25; 30]
    (repeat TMain 2 ++ [TWorker 0; TWorker 1] ++ repeat (TWorker 1) 5 ++ repeat TMain 10 ++ repeat (TWorker 0) 5 ++ repeat TMain 10)
    = Ok (Some (inr 25)).
Proof. split; reflexivity. Qed.

(** A fair schedule for two workers: round robin. *)
Example C35_fair_example :
  let sched i := match (i mod 3)%nat with O => TMain | S w => TWorker w end in
  (forall i, exists j, (i <= j)%nat /\ sched j = TMain) /\
  (forall w i, (w < 2)%nat -> exists j, (i <= j)%nat /\ sched j = TWorker w).
Proof.
  intros sched. split.
  - intros i. exists (i * 3)%nat. split; [lia|]. unfold sched. rewrite Nat.mod_mul by lia. reflexivity.
  - intros w i Hw. exists (S w + i * 3)%nat. split; [lia|]. unfold sched. rewrite Nat.mod_add by lia.
    rewrite Nat.mod_small by lia. reflexivity.
Qed.
