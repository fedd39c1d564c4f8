(** Proofs about pmap: every schedule. *)
From Coq Require Import Permutation.
From Verif Require Import Base ListAux PmapModel PmapSpec PmapProofs.
Local Open Scope nat_scope.

(** ** Chunks as index ranges *)

Fixpoint chain (a b : nat) (l : list (nat * nat)) : Prop :=
  match l with
  | [] => a = b
  | (lo, hi) :: l' => lo = a /\ lo < hi /\ chain hi b l'
  end.
Definition range (c : Z * Z) : nat * nat := (Z.to_nat (fst c), Z.to_nat (fst c + snd c)).

Lemma covers_chain l : forall a b, (0 <= a)%Z -> covers a b l -> chain (Z.to_nat a) (Z.to_nat b) (map range l).
Proof.
  induction l as [|[p n] l IH]; intros a b Ha H; cbn in *; [congruence|].
  destruct H as (-> & Hn & H). split; [reflexivity|]. split; [lia|]. apply IH; [lia|exact H].
Qed.
Lemma chain_le l : forall a b, chain a b l -> a <= b.
Proof. induction l as [|[lo hi] l IH]; intros a b H; cbn in H; [lia|]. destruct H as (-> & H1 & H2). apply IH in H2. lia. Qed.
Lemma chain_nth l : forall a b i lo hi, chain a b l -> nth_error l i = Some (lo, hi) -> a <= lo /\ lo < hi /\ hi <= b.
Proof.
  induction l as [|[lo' hi'] l IH]; intros a b [|i] lo hi H E; cbn in *; try discriminate.
  - injection E as <- <-. destruct H as (-> & H1 & H2). apply chain_le in H2. lia.
  - destruct H as (-> & H1 & H2). destruct (IH _ _ _ _ _ H2 E). lia.
Qed.
Lemma chain_lt l : forall a b i j lo hi lo' hi', chain a b l -> i < j ->
  nth_error l i = Some (lo, hi) -> nth_error l j = Some (lo', hi') -> hi <= lo'.
Proof.
  induction l as [|[x y] l IH]; intros a b [|i] [|j] lo hi lo' hi' H L E1 E2; cbn in *; try discriminate; try lia.
  - injection E1 as <- <-. destruct H as (-> & H1 & H2). destruct (chain_nth _ _ _ _ _ _ H2 E2). lia.
  - destruct H as (-> & H1 & H2). apply (IH _ _ i j _ _ _ _ H2 ltac:(lia) E1 E2).
Qed.
(** Every index before chunk [i] (or before the end) is in an earlier chunk. *)
Lemma chain_find l : forall a b x, chain a b l -> a <= x < b ->
  exists i lo hi, nth_error l i = Some (lo, hi) /\ lo <= x < hi.
Proof.
  induction l as [|[lo hi] l IH]; intros a b x H Hx; cbn in H; [lia|]. destruct H as (-> & H1 & H2).
  destruct (Nat.lt_ge_cases x hi).
  - exists 0, a, hi. split; [reflexivity|lia].
  - destruct (IH _ _ x H2 ltac:(lia)) as (i & lo' & hi' & E & L). exists (S i), lo', hi'. split; [exact E|exact L].
Qed.

(** ** Permutations of task owners *)

Lemma concat_lset {A} (qs : list (list A)) q l l' : nth_error qs q = Some l ->
  exists a b, concat qs = a ++ l ++ b /\ concat (lset qs q l') = a ++ l' ++ b.
Proof.
  intros H. apply nth_error_split in H. destruct H as (x & y & -> & <-). exists (concat x), (concat y).
  rewrite lset_split, !concat_app. cbn [concat]. split; reflexivity.
Qed.
Definition held (w : option nat) : list nat := match w with Some i => [i] | None => [] end.
Lemma held_lset ws w o o' : nth_error ws w = Some o ->
  exists a b, concat (map held ws) = a ++ held o ++ b /\ concat (map held (lset ws w o')) = a ++ held o' ++ b.
Proof.
  intros H. apply nth_error_split in H. destruct H as (x & y & -> & <-).
  exists (concat (map held x)), (concat (map held y)).
  rewrite lset_split, !map_app, !concat_app. cbn [map concat]. split; reflexivity.
Qed.

Section Run.
Context {V X : Type}.
Variable op : list V -> V + X.
Variable as_args : V -> option (list V).
Variable bad_item : X.
Variable none : V.
Variable k : pool_kind.
Variable seq : nat.
Variable unpack : bool.
Variable inputs : list V.
Variable cs : list (nat * nat).
Variable nw : nat.

Let f := call op as_args bad_item unpack.
Notation step := (step op as_args bad_item k seq unpack inputs).
Notation exec := (exec op as_args bad_item k seq unpack inputs).
Notation task_step := (task_step op as_args bad_item unpack inputs).
Notation run_task := (run_task op as_args bad_item unpack inputs).
Notation task := (task X).
Notation state := (state V X).

Hypothesis CH : chain 0 (length inputs) cs.
Hypothesis NE : cs <> [].

(** ** One task *)

Definition done_at (outs : list V) (j : nat) : Prop :=
  exists x v, nth_error inputs j = Some x /\ f x = inl v /\ nth_error outs j = Some v.
Record good_task (c : nat * nat) (t : task) (outs : list V) : Prop := {
  gt_last : last t = snd c;
  gt_cur : fst c <= cur t <= snd c;
  gt_done : forall j, fst c <= j < cur t -> done_at outs j;
  gt_exc : forall e, exc t = Some e -> cur t < snd c /\ exists x, nth_error inputs (cur t) = Some x /\ f x = inr e;
  gt_fin : fin t = true -> cur t = snd c \/ exc t <> None }.
Definition good_tasks (ts : list task) (outs : list V) : Prop :=
  length outs = length inputs /\ length ts = length cs /\
  forall i t c, nth_error ts i = Some t -> nth_error cs i = Some c -> good_task c t outs.

Definition weight (t : task) : nat :=
  if fin t then 0 else match exc t with Some _ => 1 | None => S (S (last t - cur t)) end.

Lemma rd_some {A} (l : list A) i : i < length l -> exists x, rd l i = Ok x /\ nth_error l i = Some x.
Proof.
  intros H. unfold rd. destruct (nth_error l i) eqn:E; [eauto|]. apply nth_error_None in E. lia.
Qed.
Lemma chunk_of (ts : list task) i t : length ts = length cs -> nth_error ts i = Some t -> exists c, nth_error cs i = Some c.
Proof.
  intros H E. destruct (nth_error cs i) eqn:E2; [eauto|]. apply nth_error_None in E2.
  assert (i < length ts) by (apply nth_error_Some; congruence). lia.
Qed.

Lemma task_step_ok ts outs i t : good_tasks ts outs -> nth_error ts i = Some t ->
  exists t' outs', task_step t outs = Ok (t', outs') /\ good_tasks (lset ts i t') outs' /\
    (fin t = true -> t' = t /\ outs' = outs) /\ (fin t = false -> weight t' < weight t).
Proof.
  intros G E. assert (G' := G). destruct G as (LO & LT & GT). destruct (chunk_of _ _ _ LT E) as [c Ec].
  destruct (GT _ _ _ E Ec) as [G1 G2 G3 G4 G5].
  assert (HI : i < length ts) by (apply nth_error_Some; congruence).
  assert (SAME : forall t', good_task c t' outs -> good_tasks (lset ts i t') outs).
  { intros t' Ht. split; [exact LO|]. split; [rewrite lset_length; exact LT|].
    intros j u d Hj Hd. apply nth_lset_inv in Hj. destruct Hj as [(-> & -> & _)|(N & Hj)].
    - rewrite Ec in Hd. injection Hd as <-. exact Ht.
    - eapply GT; eassumption. }
  unfold PmapModel.task_step, weight. destruct (fin t) eqn:EF.
  { exists t, outs. split; [reflexivity|]. split; [rewrite lset_same by exact E; exact G'|].
    split; [auto|discriminate]. }
  destruct (exc t) as [e|] eqn:EE.
  { eexists _, outs. split; [reflexivity|]. split; [|split; [discriminate|cbn; lia]]. apply SAME.
    split; cbn; auto; try congruence. intros _. right. congruence. }
  destruct (Nat.eqb_spec (cur t) (last t)) as [EL|EL].
  { eexists _, outs. split; [reflexivity|]. split; [|split; [discriminate|cbn; lia]]. apply SAME.
    split; cbn; auto; try congruence. intros _. left. congruence. }
  destruct c as [lo hi]. cbn [fst snd] in *. destruct (chain_nth _ _ _ _ _ _ CH Ec) as (C1 & C2 & C3).
  destruct (rd_some inputs (cur t)) as (x & Rx & Nx); [lia|]. rewrite Rx. cbn [bind].
  fold f. change (call op as_args bad_item unpack x) with (f x). destruct (f x) as [v|e] eqn:Ef.
  - destruct (rd_some outs (cur t)) as (y & Ry & Ny); [lia|]. rewrite Ry. cbn [bind].
    eexists _, _. split; [reflexivity|]. split; [|split; [discriminate|cbn; lia]].
    split; [rewrite lset_length; exact LO|]. split; [rewrite lset_length; exact LT|].
    assert (DA : forall j, j <> cur t -> done_at outs j -> done_at (lset outs (cur t) v) j).
    { intros j N (x' & v' & D1 & D2 & D3). exists x', v'. split; [exact D1|]. split; [exact D2|].
      rewrite nth_lset_ne by congruence. exact D3. }
    intros j u d Hj Hd. apply nth_lset_inv in Hj. destruct Hj as [(-> & -> & _)|(N & Hj)].
    + rewrite Ec in Hd. injection Hd as <-. split; cbn; try lia; try congruence.
      intros j' Hj'. destruct (Nat.eq_dec j' (cur t)) as [->|N]; [|apply DA; [exact N|apply G3; lia]].
      exists x, v. split; [exact Nx|]. split; [exact Ef|]. apply nth_lset_eq. lia.
    + destruct (GT _ _ _ Hj Hd) as [H1 H2 H3 H4 H5]. split; try assumption.
      intros j' Hj'. apply DA; [|apply H3; exact Hj']. destruct d as [lo' hi']. cbn [fst snd] in *.
      destruct (Nat.lt_total i j) as [L|[L|L]]; [|congruence|].
      * pose proof (chain_lt _ _ _ _ _ _ _ _ _ CH L Ec Hd). lia.
      * pose proof (chain_lt _ _ _ _ _ _ _ _ _ CH L Hd Ec). lia.
  - eexists _, outs. split; [reflexivity|]. split; [|split; [discriminate|cbn; lia]]. apply SAME.
    split; cbn; try congruence; try lia; auto.
    intros e' He'. injection He' as <-. split; [lia|]. exists x. split; assumption.
Qed.

(** ** The result *)

Lemma serial_ok : forall (l : list V) (o : list V), length o = length l ->
  (forall j, j < length l -> exists x v, nth_error l j = Some x /\ f x = inl v /\ nth_error o j = Some v) ->
  serial_map f l = inl o.
Proof.
  induction l as [|x l IH]; intros o HL H; destruct o as [|y o]; cbn in HL; try lia; [reflexivity|].
  cbn [serial_map]. destruct (H 0 ltac:(cbn; lia)) as (x' & v & E1 & E2 & E3). cbn in E1, E3.
  injection E1 as <-. injection E3 as <-. rewrite E2. rewrite (IH o); [reflexivity|lia|].
  intros j Hj. exact (H (S j) ltac:(cbn; lia)).
Qed.
Lemma serial_err : forall (l : list V) i x e, nth_error l i = Some x -> f x = inr e ->
  (forall j, j < i -> exists x v, nth_error l j = Some x /\ f x = inl v) -> serial_map f l = inr e.
Proof.
  induction l as [|y l IH]; intros [|i] x e E Ef H; cbn in *; try discriminate.
  - injection E as <-. rewrite Ef. reflexivity.
  - destruct (H 0 ltac:(lia)) as (y' & v & E1 & E2). cbn in E1. injection E1 as <-. rewrite E2.
    rewrite (IH i x e E Ef); [reflexivity|]. intros j Hj. exact (H (S j) ltac:(lia)).
Qed.

Fixpoint first_exc (ts : list task) : option X :=
  match ts with
  | [] => None
  | t :: ts' => match exc t with Some e => Some e | None => first_exc ts' end
  end.
Lemma first_exc_app a t : first_exc (a ++ [t]) = match first_exc a with Some e => Some e | None => exc t end.
Proof. induction a as [|u a IH]; cbn; [destruct (exc t); reflexivity|]. destruct (exc u); [reflexivity|apply IH]. Qed.
Lemma first_exc_snoc ts : forall i t, nth_error ts i = Some t ->
  first_exc (firstn (S i) ts) = match first_exc (firstn i ts) with Some e => Some e | None => exc t end.
Proof.
  induction ts as [|u ts IH]; intros [|i] t E; try discriminate.
  - injection E as <-. cbn. destruct (exc u); reflexivity.
  - cbn in E. specialize (IH i t E). change (firstn (S (S i)) (u :: ts)) with (u :: firstn (S i) ts).
    change (firstn (S i) (u :: ts)) with (u :: firstn i ts). cbn [first_exc]. rewrite IH. destruct (exc u); reflexivity.
Qed.
Lemma first_exc_none ts : first_exc ts = None -> forall i t, nth_error ts i = Some t -> exc t = None.
Proof.
  induction ts as [|u ts IH]; intros H [|i] t E; cbn in *; try discriminate.
  - injection E as <-. destruct (exc u); congruence.
  - destruct (exc u); [discriminate|]. eapply IH; eauto.
Qed.
Lemma first_exc_some ts e : first_exc ts = Some e -> exists i t, nth_error ts i = Some t /\ exc t = Some e /\
  forall j u, j < i -> nth_error ts j = Some u -> exc u = None.
Proof.
  induction ts as [|u ts IH]; cbn; [discriminate|]. destruct (exc u) eqn:Eu; intros H.
  - exists 0, u. split; [reflexivity|]. split; [congruence|]. lia.
  - destruct (IH H) as (i & t & E1 & E2 & E3). exists (S i), t. split; [exact E1|]. split; [exact E2|].
    intros [|j] w Hj Ew; cbn in Ew; [congruence|]. eapply E3; [|exact Ew]. lia.
Qed.

Lemma final_result ts outs : good_tasks ts outs -> (forall i t, nth_error ts i = Some t -> fin t = true) ->
  serial_map f inputs = match first_exc ts with Some e => inr e | None => inl outs end.
Proof.
  intros (LO & LT & GT) AF.
  assert (FULL : forall i t lo hi, nth_error ts i = Some t -> nth_error cs i = Some (lo, hi) -> exc t = None ->
    forall j, lo <= j < hi -> done_at outs j).
  { intros i t lo hi E Ec Ee j Hj. destruct (GT _ _ _ E Ec) as [G1 G2 G3 G4 G5]. cbn [fst snd] in *.
    destruct (G5 (AF _ _ E)) as [H|H]; [|congruence]. apply G3. lia. }
  assert (HT : forall i c, nth_error cs i = Some c -> exists t, nth_error ts i = Some t).
  { intros i c E. destruct (nth_error ts i) eqn:E2; [eauto|]. apply nth_error_None in E2.
    assert (i < length cs) by (apply nth_error_Some; congruence). lia. }
  destruct (first_exc ts) as [e|] eqn:FE.
  - destruct (first_exc_some _ _ FE) as (i & t & E & Ee & EM).
    destruct (chunk_of _ _ _ LT E) as [[lo hi] Ec]. destruct (GT _ _ _ E Ec) as [G1 G2 G3 G4 G5]. cbn [fst snd] in *.
    destruct (G4 _ Ee) as (HC & x & Ex & Ef). apply (serial_err _ (cur t) x e Ex Ef).
    intros j Hj. assert (HD : done_at outs j); [|destruct HD as (y & v & D1 & D2 & _); eauto].
    destruct (Nat.lt_ge_cases j lo) as [L|L]; [|apply G3; lia].
    destruct (chain_find _ _ _ j CH) as (i' & lo' & hi' & Ec' & Hj').
    { split; [lia|]. destruct (chain_nth _ _ _ _ _ _ CH Ec) as (? & ? & ?). lia. }
    destruct (HT _ _ Ec') as [t' Et'].
    destruct (Nat.lt_total i' i) as [I|[I|I]].
    + eapply FULL; eauto.
    + subst i'. rewrite Ec in Ec'. injection Ec' as <- <-. lia.
    + pose proof (chain_lt _ _ _ _ _ _ _ _ _ CH I Ec Ec'). lia.
  - apply serial_ok; [exact LO|]. intros j Hj.
    destruct (chain_find _ _ _ j CH) as (i' & lo' & hi' & Ec' & Hj'); [lia|].
    destruct (HT _ _ Ec') as [t' Et']. eapply FULL; eauto. eapply first_exc_none; eauto.
Qed.

(** ** The whole system *)

Definition owners (s : state) : list nat := concat (queues s) ++ concat (map held (workers s)).
Definition finished (s : state) (i : nat) : Prop := exists t, nth_error (tasks s) i = Some t /\ fin t = true.
Definition owned (s : state) (i : nat) : Prop := finished s i \/ In i (owners s).

(** What the calling thread may rely on where it is. *)
Definition main_ok (s : state) : Prop :=
  match main s with
  | MEnqueue i => 1 <= i /\ (forall j, In j (owners s) -> 1 <= j < i) /\ (forall j, 1 <= j < i -> owned s j)
  | MRunFirst => (forall j, In j (owners s) -> 1 <= j) /\ (forall j, 1 <= j < length cs -> owned s j)
  | MRunAll i => owners s = [] /\ i <= length cs /\ forall j, j < i -> finished s j
  | MWait i first => finished s 0 /\ (forall j, 1 <= j < length cs -> owned s j) /\ i <= length cs /\
      (forall j, j < i -> finished s j) /\ first = first_exc (firstn i (tasks s))
  | MReturned first => (forall j, j < length cs -> finished s j) /\ first = first_exc (tasks s)
  end.
Record inv (s : state) : Prop := {
  i_tasks : good_tasks (tasks s) (outs s);
  i_queues : length (queues s) = queue_count k nw;
  i_workers : length (workers s) = nw;
  i_nodup : NoDup (owners s);
  i_range : forall j, In j (owners s) -> j < length cs;
  i_main : main_ok s }.

Definition main_weight (m : main_state X) : nat :=
  let n := length cs in
  match m with
  | MEnqueue i => 3 * (n - i) + n + 3
  | MRunFirst => n + 2
  | MRunAll i => (n - i) + n + 2
  | MWait i _ => n - i + 1
  | MReturned _ => 0
  end.
Definition measure (s : state) : nat :=
  list_sum (map weight (tasks s)) + 2 * length (concat (queues s)) + length (concat (map held (workers s))) +
  main_weight (main s).

Lemma sum_lset (ts : list task) i t t' : nth_error ts i = Some t ->
  list_sum (map weight (lset ts i t')) + weight t = list_sum (map weight ts) + weight t'.
Proof.
  intros E. apply nth_error_split in E. destruct E as (a & b & -> & <-). rewrite lset_split, !map_app.
  unfold list_sum. rewrite !fold_right_app. cbn [map fold_right].
  fold (list_sum (map weight b)). fold list_sum.
  assert (HS : forall l x, fold_right plus x l = fold_right plus 0 l + x).
  { induction l; intros x; cbn; [reflexivity|]. rewrite IHl. lia. }
  rewrite (HS (map weight a) (weight t' + _)). rewrite (HS (map weight a) (weight t + _)). lia.
Qed.

Lemma rd_eq {A} (l : list A) i x : nth_error l i = Some x -> rd l i = Ok x.
Proof. intros H. unfold rd. rewrite H. reflexivity. Qed.

(** A task run by whoever holds it. *)
Lemma run_task_inv s i t : inv s -> nth_error (tasks s) i = Some t -> fin t = false ->
  (forall first, main s <> MReturned first) ->
  exists s', run_task s i = Ok s' /\ inv s' /\ measure s' < measure s /\ main s' = main s.
Proof.
  intros I E F NR. destruct (task_step_ok _ _ _ _ (i_tasks _ I) E) as (t' & o' & ES & G & _ & W).
  unfold PmapModel.run_task. rewrite (rd_eq _ _ _ E). cbn [bind]. rewrite ES. cbn [bind fst snd].
  eexists. split; [reflexivity|]. split; [|split; [|reflexivity]].
  - destruct I as [I1 I2 I3 I4 I5 I6]. split; cbn [tasks outs queues workers]; auto.
    assert (FI : forall j, finished s j ->
      finished {| main := main s; queues := queues s; workers := workers s; tasks := lset (tasks s) i t'; outs := o' |} j).
    { intros j (u & Eu & Fu). exists u. cbn [tasks]. split; [|exact Fu].
      rewrite nth_lset_ne; [exact Eu|]. intros <-. congruence. }
    unfold main_ok in *. cbn [main]. destruct (main s) as [i0| |i0|i0 first|first] eqn:EM.
    + destruct I6 as (A & B & C). split; [exact A|]. split; [exact B|]. intros j Hj. destruct (C j Hj); [left; auto|right; assumption].
    + destruct I6 as (A & B). split; [exact A|]. intros j Hj. destruct (B j Hj); [left; auto|right; assumption].
    + destruct I6 as (A & B & C). split; [exact A|]. split; [exact B|]. auto.
    + destruct I6 as (A & B & C & D & E6). split; [auto|]. split; [intros j Hj; destruct (B j Hj); [left; auto|right; assumption]|].
      split; [exact C|]. split; [auto|]. rewrite E6. cbn [tasks]. f_equal.
      assert (HN : i0 <= i). { destruct (Nat.le_gt_cases i0 i) as [|L]; [assumption|]. destruct (D i L) as (u & Eu & Fu). congruence. }
      clear - HN. revert i i0 HN. induction (tasks s) as [|u l IH]; intros [|i] [|i0] HN; cbn; try reflexivity; try lia.
      f_equal. apply IH. lia.
    + exfalso. eapply NR. reflexivity.
  - unfold measure. cbn [tasks queues workers main]. pose proof (sum_lset (tasks s) i t t' E). specialize (W F). lia.
Qed.

Lemma owners_set_main s m : owners (set_main s m) = owners s. Proof. reflexivity. Qed.

Hypothesis POOL : 1 <= nw \/ length cs = 1.

Lemma len_tasks s : inv s -> length (tasks s) = length cs.
Proof. intros I. apply (i_tasks _ I). Qed.
Lemma cs_pos : 1 <= length cs.
Proof. destruct cs; [congruence|cbn; lia]. Qed.

(** Every step of the calling thread is defined, keeps the invariant, and either changes
    nothing or makes progress. *)
Lemma main_step_inv s : inv s ->
  exists s', main_step op as_args bad_item k seq unpack inputs s = Ok s' /\ inv s' /\ (s' = s \/ measure s' < measure s).
Proof.
  intros I. pose proof cs_pos as CP. pose proof (len_tasks _ I) as LT.
  assert (I0 := I). destruct I as [I1 I2 I3 I4 I5 I6].
  unfold main_step. unfold main_ok in I6. destruct (main s) as [i| |i|i first|first] eqn:EM.
  - destruct I6 as (A & B & C). destruct (Nat.ltb_spec i (length (tasks s))) as [L|L].
    + rewrite I3. rewrite LT in L. assert (HW : 1 <= nw) by (destruct POOL; lia).
      assert (HR : exists q, route k nw (seq + i - 1) = Ok q /\ q < queue_count k nw).
      { unfold route, queue_count. destruct k; [exists 0; split; [reflexivity|lia]|].
        destruct (Nat.leb_spec nw (seq + i - 1)).
        - destruct (Nat.eqb_spec nw 0); [lia|]. eexists. split; [reflexivity|]. apply Nat.mod_upper_bound. lia.
        - eexists. split; [reflexivity|lia]. }
      destruct HR as (q & -> & Hq). cbn [bind].
      destruct (rd_some (queues s) q) as (l & Rl & Nl); [lia|]. rewrite Rl. cbn [bind].
      destruct (room k l); [|exists s; auto].
      destruct (concat_lset (queues s) q l (l ++ [i]) Nl) as (a & b & E1 & E2).
      eexists. split; [reflexivity|].
      assert (HP : Permutation (i :: owners s)
        (owners {| main := MEnqueue (S i); queues := lset (queues s) q (l ++ [i]); workers := workers s; tasks := tasks s; outs := outs s |})).
      { unfold owners. cbn [queues workers]. rewrite E1, E2. rewrite <- !app_assoc. cbn [app].
        symmetry. rewrite !app_assoc. rewrite <- Permutation_middle. rewrite !app_assoc. reflexivity. }
      split.
      * split; cbn [tasks outs queues workers]; auto.
        -- rewrite lset_length. exact I2.
        -- eapply Permutation_NoDup; [exact HP|]. constructor; [|exact I4]. intros H. apply B in H. lia.
        -- intros j Hj. apply (Permutation_in _ (Permutation_sym HP)) in Hj. destruct Hj as [<-|Hj]; [lia|auto].
        -- unfold main_ok. cbn [main]. split; [lia|]. split.
           ++ intros j Hj. apply (Permutation_in _ (Permutation_sym HP)) in Hj. destruct Hj as [<-|Hj]; [lia|]. apply B in Hj. lia.
           ++ intros j Hj. destruct (Nat.eq_dec j i) as [->|N].
              ** right. apply (Permutation_in _ HP). left. reflexivity.
              ** destruct (C j ltac:(lia)) as [F|F]; [left; exact F|right]. apply (Permutation_in _ HP). right. exact F.
      * right. unfold measure. cbn [tasks queues workers main]. rewrite EM, E1, E2. rewrite !app_length. cbn [length main_weight]. lia.
    + eexists. split; [reflexivity|]. split.
      * split; cbn [tasks outs queues workers set_main]; auto. unfold main_ok. cbn [main set_main]. split; [intros j Hj; apply B in Hj; lia|].
        intros j Hj. apply C. lia.
      * right. unfold measure. cbn [tasks queues workers main set_main]. rewrite EM. cbn [main_weight]. lia.
  - destruct I6 as (A & B). destruct (rd_some (tasks s) 0) as (t & Rt & Nt); [lia|]. rewrite Rt. cbn [bind].
    destruct (fin t) eqn:F.
    + eexists. split; [reflexivity|]. split.
      * split; cbn [tasks outs queues workers set_main]; auto. unfold main_ok. cbn [main set_main].
        split; [exists t; auto|]. split; [exact B|]. split; [lia|]. split; [lia|reflexivity].
      * right. unfold measure. cbn [tasks queues workers main set_main]. rewrite EM. cbn [main_weight]. lia.
    + destruct (run_task_inv s 0 t I0 Nt F) as (s' & E1 & E2 & E3 & _); [intros first; congruence|]. eauto.
  - destruct I6 as (A & B & C). destruct (Nat.ltb_spec i (length (tasks s))) as [L|L].
    + destruct (rd_some (tasks s) i) as (t & Rt & Nt); [lia|]. rewrite Rt. cbn [bind]. destruct (fin t) eqn:F.
      * eexists. split; [reflexivity|]. split.
        -- split; cbn [tasks outs queues workers set_main]; auto. unfold main_ok. cbn [main set_main].
           split; [exact A|]. split; [lia|]. intros j Hj. destruct (Nat.eq_dec j i) as [->|N]; [exists t; auto|apply C; lia].
        -- right. unfold measure. cbn [tasks queues workers main set_main]. rewrite EM. cbn [main_weight]. lia.
      * destruct (run_task_inv s i t I0 Nt F) as (s' & E1 & E2 & E3 & _); [intros first; congruence|]. eauto.
    + eexists. split; [reflexivity|]. split.
      * split; cbn [tasks outs queues workers set_main]; auto. unfold main_ok. cbn [main set_main].
        split; [apply C; lia|]. split; [intros j Hj; left; apply C; lia|]. split; [lia|]. split; [lia|reflexivity].
      * right. unfold measure. cbn [tasks queues workers main set_main]. rewrite EM. cbn [main_weight]. lia.
  - destruct I6 as (A & B & C & D & E6). destruct (Nat.ltb_spec i (length (tasks s))) as [L|L].
    + destruct (rd_some (tasks s) i) as (t & Rt & Nt); [lia|]. rewrite Rt. cbn [bind]. destruct (fin t) eqn:F; [|exists s; auto].
      eexists. split; [reflexivity|]. split.
      * split; cbn [tasks outs queues workers set_main]; auto. unfold main_ok. cbn [main set_main].
        split; [exact A|]. split; [exact B|]. split; [lia|]. split.
        -- intros j Hj. destruct (Nat.eq_dec j i) as [->|N]; [exists t; auto|apply D; lia].
        -- cbn [tasks]. rewrite E6. symmetry. apply first_exc_snoc. exact Nt.
      * right. unfold measure. cbn [tasks queues workers main set_main]. rewrite EM. cbn [main_weight]. lia.
    + eexists. split; [reflexivity|]. split.
      * split; cbn [tasks outs queues workers set_main]; auto. unfold main_ok. cbn [main set_main].
        split; [intros j Hj; apply D; lia|]. cbn [tasks]. rewrite E6. f_equal. apply firstn_all2. exact L.
      * right. unfold measure. cbn [tasks queues workers main set_main]. rewrite EM. cbn [main_weight]. lia.
  - exists s. auto.
Qed.

Lemma serves_lt w : w < nw -> serves k w < queue_count k nw.
Proof. unfold serves, queue_count. destruct k; lia. Qed.

Lemma worker_step_inv s w : inv s -> w < nw ->
  exists s', worker_step op as_args bad_item k w unpack inputs s = Ok s' /\ inv s' /\
    (s' = s /\ nth_error (workers s) w = Some None /\ nth_error (queues s) (serves k w) = Some [] \/ measure s' < measure s).
Proof.
  intros I Hw. assert (I0 := I). destruct I as [I1 I2 I3 I4 I5 I6]. unfold worker_step.
  destruct (rd_some (workers s) w) as (o & Ro & No); [lia|]. rewrite Ro. cbn [bind].
  pose proof (serves_lt w Hw) as HS.
  (* changing queues and workers without changing the set of owners *)
  assert (MAINP : forall s', main s' = main s -> tasks s' = tasks s -> (forall j, In j (owners s') -> In j (owners s)) ->
    (forall j, In j (owners s) -> finished s j \/ In j (owners s')) -> main_ok s').
  { intros s' M T SUB SUP. unfold main_ok in *. rewrite M.
    assert (FI : forall j, finished s j -> finished s' j) by (intros j (t & Et & Ft); exists t; rewrite T; auto).
    assert (OW : forall j, owned s j -> owned s' j).
    { intros j [H|H]; [left; auto|]. destruct (SUP j H); [left; auto|right; assumption]. }
    destruct (main s) as [i| |i|i first|first].
    - destruct I6 as (A & B & C). split; [exact A|]. split; auto.
    - destruct I6 as (A & B). split; auto.
    - destruct I6 as (A & B & C). split; [|split; auto].
      destruct (owners s') as [|j l] eqn:EO; [reflexivity|]. specialize (SUB j (or_introl eq_refl)). rewrite A in SUB. destruct SUB.
    - destruct I6 as (A & B & C & D & E). split; [auto|]. split; [auto|]. split; [exact C|]. split; [auto|]. rewrite T. exact E.
    - destruct I6 as (A & B). split; [auto|]. rewrite T. exact B. }
  destruct o as [i|].
  - assert (HO : In i (owners s)).
    { apply in_or_app. right. destruct (held_lset _ _ _ None No) as (a & b & E1 & _). rewrite E1. apply in_or_app. right. left. reflexivity. }
    pose proof (I5 _ HO) as HI. destruct (rd_some (tasks s) i) as (t & Rt & Nt); [rewrite (len_tasks _ I0); exact HI|].
    rewrite Rt. cbn [bind]. destruct (fin t) eqn:F.
    + destruct (held_lset _ _ _ None No) as (a & b & E1 & E2).
      assert (HP : Permutation (owners s) (i :: owners {| main := main s; queues := queues s; workers := lset (workers s) w None; tasks := tasks s; outs := outs s |})).
      { unfold owners. cbn [queues workers]. rewrite E1, E2. cbn [held app]. rewrite !app_assoc. symmetry. apply Permutation_middle. }
      eexists. split; [reflexivity|]. split.
      * split; cbn [tasks outs queues workers]; auto.
        -- rewrite lset_length. exact I3.
        -- apply (Permutation_NoDup HP) in I4. inversion I4. assumption.
        -- intros j Hj. apply I5. apply (Permutation_in _ (Permutation_sym HP)). right. exact Hj.
        -- apply MAINP; try reflexivity.
           ++ intros j Hj. apply (Permutation_in _ (Permutation_sym HP)). right. exact Hj.
           ++ intros j Hj. apply (Permutation_in _ HP) in Hj. destruct Hj as [<-|Hj]; [left; exists t; auto|right; exact Hj].
      * right. unfold measure. cbn [tasks queues workers main]. rewrite E1, E2, !app_length. cbn [held length]. lia.
    + destruct (main s) eqn:EM.
      5:{ exfalso. unfold main_ok in I6. rewrite EM in I6. destruct I6 as [A _]. destruct (A i HI) as (u & Eu & Fu). congruence. }
      all: destruct (run_task_inv s i t I0 Nt F) as (s' & E1 & E2 & E3 & _); [intros ?; congruence|]; exists s'; auto.
  - destruct (rd_some (queues s) (serves k w)) as (l & Rl & Nl); [lia|]. rewrite Rl. cbn [bind].
    destruct l as [|i l]; [exists s; auto 10|].
    destruct (concat_lset _ _ _ l Nl) as (a & b & E1 & E2). destruct (held_lset _ _ _ (Some i) No) as (c & d & E3 & E4).
    assert (HP : Permutation (owners s) (owners {| main := main s; queues := lset (queues s) (serves k w) l;
       workers := lset (workers s) w (Some i); tasks := tasks s; outs := outs s |})).
    { unfold owners. cbn [queues workers]. rewrite E1, E2, E3, E4. cbn [held app].
      replace (a ++ i :: l ++ b) with (a ++ i :: (l ++ b)) by reflexivity. rewrite <- Permutation_middle.
      replace ((a ++ l ++ b) ++ c ++ i :: d) with (((a ++ l ++ b) ++ c) ++ i :: d) by (rewrite <- app_assoc; reflexivity).
      rewrite <- Permutation_middle. cbn [app]. rewrite <- !app_assoc. reflexivity. }
    eexists. split; [reflexivity|]. split.
    + split; cbn [tasks outs queues workers]; auto; try (rewrite lset_length; assumption).
      * eapply Permutation_NoDup; eassumption.
      * intros j Hj. apply I5. apply (Permutation_in _ (Permutation_sym HP)). exact Hj.
      * apply MAINP; try reflexivity.
        -- intros j Hj. apply (Permutation_in _ (Permutation_sym HP)). exact Hj.
        -- intros j Hj. right. apply (Permutation_in _ HP). exact Hj.
    + right. unfold measure. cbn [tasks queues workers main]. rewrite E1, E2, E3, E4, !app_length. cbn [held length]. lia.
Qed.

Lemma step_inv s th : inv s -> exists s', step s th = Ok s' /\ inv s' /\ (s' = s \/ measure s' < measure s).
Proof.
  intros I. destruct th as [|w]; cbn [PmapModel.step]; [apply main_step_inv; exact I|].
  rewrite (i_workers _ I). destruct (Nat.ltb_spec w nw) as [L|L]; [|exists s; auto].
  destruct (worker_step_inv s w I L) as (s' & E & I' & [(-> & _)|M]); eauto.
Qed.
Lemma exec_inv sched : forall s, inv s -> exists s', exec s sched = Ok s' /\ inv s'.
Proof.
  induction sched as [|th sched IH]; intros s I; cbn [PmapModel.exec]; [eauto|].
  destruct (step_inv s th I) as (s1 & E & I1 & _). rewrite E. cbn [bind]. apply IH, I1.
Qed.

(** ** Progress *)
Lemma in_concat_nth {A} (x : A) (ls : list (list A)) : In x (concat ls) ->
  exists i l, nth_error ls i = Some l /\ In x l.
Proof.
  intros H. apply in_concat in H. destruct H as (l & Hl & Hx). apply In_nth_error in Hl. destruct Hl as [i Hi]. eauto.
Qed.

(** Whoever serves a non-empty queue, or holds a task, makes progress. *)
Lemma worker_progress s w : inv s -> w < nw ->
  (nth_error (workers s) w <> Some None \/ nth_error (queues s) (serves k w) <> Some []) ->
  exists s', step s (TWorker w) = Ok s' /\ measure s' < measure s.
Proof.
  intros I Hw H. cbn [PmapModel.step]. rewrite (i_workers _ I). destruct (Nat.ltb_spec w nw) as [L|L]; [|lia].
  destruct (worker_step_inv s w I Hw) as (s' & E & I' & [(-> & A & B)|M]); [|eauto]. destruct H; congruence.
Qed.
Lemma queue_progress s q l : inv s -> 1 <= nw -> nth_error (queues s) q = Some l -> l <> [] ->
  exists th s', step s th = Ok s' /\ measure s' < measure s.
Proof.
  intros I Hnw Hq Hl.
  assert (HQ : q < queue_count k nw) by (rewrite <- (i_queues _ I); apply nth_error_Some; congruence).
  assert (HW : exists w, w < nw /\ serves k w = q).
  { unfold queue_count, serves in *. destruct k; [exists 0; lia|exists q; lia]. }
  destruct HW as (w & Hw & Es). destruct (worker_progress s w I Hw) as (s' & E & M); [|eauto].
  right. rewrite Es, Hq. congruence.
Qed.

Lemma progress s : inv s -> result s = None -> exists th s', step s th = Ok s' /\ measure s' < measure s.
Proof.
  intros I HR. pose proof cs_pos as CP. pose proof (len_tasks _ I) as LT. pose proof (i_main _ I) as IM.
  destruct (main_step_inv s I) as (s' & E & I' & [->|M]); [|exists TMain, s'; auto].
  unfold main_step in E. unfold main_ok in IM. unfold result in HR.
  destruct (main s) as [i| |i|i first|first] eqn:EM.
  - destruct IM as (A & B & C). destruct (Nat.ltb_spec i (length (tasks s))) as [L|L].
    + rewrite (i_workers _ I) in E. assert (HW : 1 <= nw) by (destruct POOL; lia).
      destruct (route k nw (seq + i - 1)) as [q| | |] eqn:ER; cbn [bind] in E; try discriminate.
      destruct (rd (queues s) q) as [l| | |] eqn:EQ; cbn [bind] in E; try discriminate.
      assert (NQ : nth_error (queues s) q = Some l) by (unfold rd in EQ; destruct (nth_error (queues s) q); congruence).
      destruct (room k l) eqn:EO.
      * exfalso. injection E as E. apply (f_equal main) in E. cbn [main] in E. rewrite EM in E. injection E. lia.
      * apply (queue_progress s q l I HW NQ). intros ->. unfold room in EO. destruct k; [discriminate|].
        change (length (@nil nat)) with 0 in EO. apply Nat.ltb_ge in EO. lia.
    + exfalso. injection E as E. apply (f_equal main) in E. cbn [main set_main] in E. congruence.
  - exfalso. destruct (rd (tasks s) 0) as [t| | |] eqn:ET; cbn [bind] in E; try discriminate.
    assert (NT : nth_error (tasks s) 0 = Some t) by (unfold rd in ET; destruct (nth_error (tasks s) 0); congruence).
    destruct (fin t) eqn:F.
    + injection E as E. apply (f_equal main) in E. cbn [main set_main] in E. congruence.
    + destruct (run_task_inv s 0 t I NT F) as (s1 & E1 & _ & E3 & _); [intros x; congruence|].
      rewrite E1 in E. injection E as ->. lia.
  - exfalso. destruct (Nat.ltb_spec i (length (tasks s))) as [L|L].
    + destruct (rd (tasks s) i) as [t| | |] eqn:ET; cbn [bind] in E; try discriminate.
      assert (NT : nth_error (tasks s) i = Some t) by (unfold rd in ET; destruct (nth_error (tasks s) i); congruence).
      destruct (fin t) eqn:F.
      * injection E as E. apply (f_equal main) in E. cbn [main set_main] in E. rewrite EM in E. injection E. lia.
      * destruct (run_task_inv s i t I NT F) as (s1 & E1 & _ & E3 & _); [intros x; congruence|].
        rewrite E1 in E. injection E as ->. lia.
    + injection E as E. apply (f_equal main) in E. cbn [main set_main] in E. congruence.
  - destruct IM as (A & B & C & D & E6). destruct (Nat.ltb_spec i (length (tasks s))) as [L|L].
    + destruct (rd (tasks s) i) as [t| | |] eqn:ET; cbn [bind] in E; try discriminate.
      assert (NT : nth_error (tasks s) i = Some t) by (unfold rd in ET; destruct (nth_error (tasks s) i); congruence).
      destruct (fin t) eqn:F.
      * exfalso. injection E as E. apply (f_equal main) in E. cbn [main set_main] in E. rewrite EM in E. injection E. lia.
      * destruct (Nat.eq_dec i 0) as [->|Ni]; [exfalso; destruct A as (u & Eu & Fu); congruence|].
        destruct (B i ltac:(lia)) as [(u & Eu & Fu)|HO]; [congruence|].
        assert (HW : 1 <= nw) by (destruct POOL; lia).
        unfold owners in HO. apply in_app_or in HO. destruct HO as [HO|HO].
        -- apply in_concat_nth in HO. destruct HO as (q & l & Eq & Hl). apply (queue_progress s q l I HW Eq). intros ->. destruct Hl.
        -- apply in_concat_nth in HO. destruct HO as (w & l & Ew & Hl). rewrite nth_error_map in Ew.
           destruct (nth_error (workers s) w) as [o|] eqn:Eo; cbn in Ew; [|discriminate]. injection Ew as <-.
           assert (Hw : w < nw) by (rewrite <- (i_workers _ I); apply nth_error_Some; congruence).
           destruct (worker_progress s w I Hw) as (s1 & E1 & M1); [|eauto]. left. destruct o; [congruence|destruct Hl].
    + exfalso. injection E as E. apply (f_equal main) in E. cbn [main set_main] in E. congruence.
  - destruct first; discriminate.
Qed.

Lemma completes : forall m s, inv s -> measure s <= m -> exists sched s', exec s sched = Ok s' /\ inv s' /\ result s' <> None.
Proof.
  induction m as [|m IH]; intros s I HM.
  - destruct (result s) eqn:ER; [exists [], s; cbn; split; [reflexivity|split; [exact I|congruence]]|].
    destruct (progress s I ER) as (th & s' & E & M). lia.
  - destruct (result s) eqn:ER; [exists [], s; cbn; split; [reflexivity|split; [exact I|congruence]]|].
    destruct (progress s I ER) as (th & s' & E & M).
    destruct (step_inv s th I) as (s1 & E1 & I1 & _). rewrite E in E1. injection E1 as <-.
    destruct (IH s' I1 ltac:(lia)) as (sched & s2 & E2 & I2 & R2).
    exists (th :: sched), s2. cbn [PmapModel.exec]. rewrite E. cbn [bind]. auto.
Qed.

Lemma result_ok s r : inv s -> result s = Some r -> r = serial_map f inputs.
Proof.
  intros I HR. unfold result in HR. pose proof (i_main _ I) as IM. unfold main_ok in IM.
  destruct (main s) as [i| |i|i first|first] eqn:EM; try discriminate. destruct IM as (A & B).
  pose proof (final_result _ _ (i_tasks _ I)) as FR. rewrite FR.
  - rewrite <- B. destruct first; congruence.
  - intros i t E. assert (HI : i < length cs) by (rewrite <- (len_tasks _ I); apply nth_error_Some; congruence).
    destruct (A i HI) as (u & Eu & Fu). congruence.
Qed.

(** Fair schedules. *)
Definition fair (sched : nat -> thread) : Prop :=
  (forall i, exists j, i <= j /\ sched j = TMain) /\
  (forall w i, w < nw -> exists j, i <= j /\ sched j = TWorker w).

Lemma exec_app l1 : forall l2 s, exec s (l1 ++ l2) = let! s' := exec s l1 in exec s' l2.
Proof.
  induction l1 as [|th l1 IH]; intros l2 s; cbn [app PmapModel.exec]; [reflexivity|].
  destruct (step s th); cbn [bind]; auto.
Qed.
Lemma fair_completes sched : fair sched -> forall m s i, inv s -> measure s <= m ->
  exists N s', exec s (map sched (List.seq i N)) = Ok s' /\ inv s' /\ result s' <> None.
Proof.
  intros [FM FW]. induction m as [m IH] using lt_wf_ind. intros s i I HM.
  destruct (result s) eqn:ER; [exists 0, s; cbn; split; [reflexivity|split; [exact I|congruence]]|].
  destruct (progress s I ER) as (th & s1 & E & M).
  assert (HJ : exists j, i <= j /\ sched j = th).
  { destruct th as [|w]; [apply FM|]. destruct (Nat.lt_ge_cases w nw); [apply FW; assumption|].
    exfalso. cbn [PmapModel.step] in E. rewrite (i_workers _ I) in E. destruct (Nat.ltb_spec w nw); [lia|]. injection E as <-. lia. }
  destruct HJ as (j & Hj & Es).
  (* from i to j: either nothing happens, or the measure decreases *)
  assert (HB : forall d, exists s2, exec s (map sched (List.seq i d)) = Ok s2 /\ inv s2 /\ (s2 = s \/ measure s2 < measure s)).
  { induction d as [|d (s2 & E2 & I2 & H2)]; [exists s; cbn; auto|].
    rewrite seq_S, map_app, exec_app, E2. cbn [bind map PmapModel.exec].
    destruct (step_inv s2 (sched (i + d)) I2) as (s3 & E3 & I3 & H3). rewrite E3. cbn [bind]. exists s3. split; [reflexivity|].
    split; [exact I3|]. destruct H2 as [->|H2]; [exact H3|]. destruct H3 as [->|H3]; right; lia. }
  assert (HC : exists d s2, exec s (map sched (List.seq i d)) = Ok s2 /\ inv s2 /\ measure s2 < measure s).
  { destruct (HB (j - i)) as (s2 & E2 & I2 & [->|H2]); [|exists (j - i), s2; auto].
    destruct (step_inv s th I) as (s3 & E3 & I3 & _). rewrite E in E3. injection E3 as <-.
    exists (S (j - i)), s1. split; [|auto]. rewrite seq_S, map_app, exec_app, E2. cbn [bind map PmapModel.exec].
    replace (i + (j - i)) with j by lia. rewrite Es, E. reflexivity. }
  destruct HC as (d & s2 & E2 & I2 & H2).
  destruct (IH (measure s2) ltac:(lia) s2 (i + d) I2 ltac:(lia)) as (N & s3 & E3 & I3 & R3).
  exists (d + N), s3. rewrite seq_app, map_app, exec_app, E2. cbn [bind]. auto.
Qed.

(** The start. *)
Lemma start_inv nested chunks : map range chunks = cs -> inv (start none k nw nested chunks inputs).
Proof.
  intros EC. assert (OW : owners (start none k nw nested chunks inputs) = []).
  { unfold owners, start. cbn [queues workers].
    assert (Q : forall m, concat (repeat (@nil nat) m) = []) by (induction m; cbn; auto).
    assert (W : forall m, concat (map held (repeat None m)) = []) by (induction m; cbn; auto).
    rewrite Q, W. reflexivity. }
  split.
  - unfold start. cbn [tasks outs]. split; [apply repeat_length|]. split; [rewrite <- EC, !map_length; reflexivity|].
    intros i t c Ht Hc. rewrite <- EC in Hc. rewrite nth_error_map in Ht, Hc.
    destruct (nth_error chunks i) as [[p l]|] eqn:E; cbn in Ht, Hc; [|discriminate].
    injection Ht as <-. injection Hc as <-.
    assert (Ec : nth_error cs i = Some (range (p, l))) by (rewrite <- EC, nth_error_map, E; reflexivity).
    unfold range in Ec. destruct (chain_nth _ _ _ _ _ _ CH Ec) as (A & B & C).
    unfold range, mk_task. cbn [fst snd] in *. split; cbn [cur last exc fin fst snd]; try lia; try discriminate; auto.
  - unfold start. cbn [queues]. apply repeat_length.
  - unfold start. cbn [workers]. apply repeat_length.
  - rewrite OW. constructor.
  - rewrite OW. intros j [].
  - unfold main_ok. rewrite OW. unfold start. cbn [main]. destruct nested.
    + split; [reflexivity|]. split; lia.
    + split; [lia|]. split; [intros j []|lia].
Qed.

(** No task is in two hands. *)
Definition busy (s : state) : list nat :=
  (match main s with MRunFirst => [0] | MRunAll i => [i] | _ => [] end) ++
  concat (queues s) ++ concat (map (fun w : option nat => match w with Some i => [i] | None => [] end) (workers s)).
Lemma busy_nodup s : inv s -> NoDup (busy s).
Proof.
  intros I. pose proof (i_main _ I) as IM. pose proof (i_nodup _ I) as ND. unfold busy. fold held.
  change (NoDup ((match main s with MRunFirst => [0] | MRunAll i => [i] | _ => [] end) ++ owners s)).
  unfold main_ok in IM. destruct (main s) as [i| |i|i first|first]; cbn [app]; try exact ND.
  - destruct IM as (A & _). constructor; [|exact ND]. intros H. apply A in H. lia.
  - destruct IM as (A & _). rewrite A. constructor; [intros []|constructor].
Qed.
End Run.

(** ** A pool without threads *)
Section NoWorkers.
Context {V X : Type}.
Variable op : list V -> V + X.
Variable as_args : V -> option (list V).
Variable bad_item : X.
Variable none : V.

Definition stuck (s : state V X) : Prop :=
  workers s = [] /\ length (queues s) = 1 /\ (exists t, nth_error (tasks s) 1 = Some t /\ fin t = false) /\
  match main s with MEnqueue i => 1 <= i | MRunFirst => True | MWait i _ => i <= 1 | _ => False end.

Lemma run_first_stuck unpack inputs s s' : stuck s -> main s = MRunFirst -> run_task op as_args bad_item unpack inputs s 0 = Ok s' -> stuck s'.
Proof.
  intros (A & B & (t1 & C & D) & E) EM H. unfold run_task in H.
  destruct (rd (tasks s) 0); cbn [bind] in H; try discriminate.
  match type of H with context [task_step ?a ?b ?c ?d ?e ?f ?g] => destruct (task_step a b c d e f g) as [[t' o']| | |] end; cbn [bind] in H; try discriminate.
  injection H as <-. split; [exact A|]. split; [exact B|]. split.
  - exists t1. cbn [tasks]. rewrite nth_lset_ne by discriminate. auto.
  - cbn [main]. rewrite EM. exact I.
Qed.
Lemma stuck_step seq unpack inputs s th s' : stuck s -> step op as_args bad_item LockBased seq unpack inputs s th = Ok s' -> stuck s'.
Proof.
  intros S H. assert (S0 := S). destruct S as (A & B & (t1 & C & D) & E). destruct th as [|w]; cbn [step] in H.
  - unfold main_step in H. assert (LT : 1 < length (tasks s)) by (apply nth_error_Some; congruence).
    destruct (main s) as [i| |i|i first|first] eqn:EM; try contradiction.
    + destruct (Nat.ltb i (length (tasks s))).
      * cbn [route bind] in H. destruct (rd (queues s) 0); cbn [bind room] in H; try discriminate. injection H as <-.
        split; [exact A|]. split; [cbn [queues]; rewrite lset_length; exact B|]. split; [exists t1; auto|]. cbn [main]. lia.
      * injection H as <-. split; [exact A|]. split; [exact B|]. split; [exists t1; auto|]. exact I.
    + destruct (rd (tasks s) 0) as [t| | |] eqn:E0; cbn [bind] in H; try discriminate. destruct (fin t).
      * injection H as <-. split; [exact A|]. split; [exact B|]. split; [exists t1; auto|]. cbn. lia.
      * eapply run_first_stuck; eassumption.
    + destruct (Nat.ltb_spec i (length (tasks s))) as [L|L]; [|lia].
      destruct (rd (tasks s) i) as [t| | |] eqn:E0; cbn [bind] in H; try discriminate. destruct (fin t) eqn:F.
      * injection H as <-. split; [exact A|]. split; [exact B|]. split; [exists t1; auto|]. cbn [main set_main].
        destruct i as [|[|i]]; [lia| |lia]. unfold rd in E0. rewrite C in E0. injection E0 as <-. congruence.
      * injection H as <-. exact S0.
  - rewrite A in H. cbn in H. injection H as <-. exact S0.
Qed.
Lemma stuck_exec seq unpack inputs sched : forall s s', stuck s -> exec op as_args bad_item LockBased seq unpack inputs s sched = Ok s' -> stuck s'.
Proof.
  induction sched as [|th sched IH]; intros s s' S H; cbn [exec] in H; [injection H as <-; exact S|].
  destruct (step op as_args bad_item LockBased seq unpack inputs s th) as [s1| | |] eqn:E; cbn [bind] in H; try discriminate.
  eapply IH; [|exact H]. eapply stuck_step; eassumption.
Qed.
End NoWorkers.
