(** Proofs about the thread pools. *)
From Coq Require Import Permutation.
From Verif Require Import Base ListAux Fair PoolModel.
Local Open Scope nat_scope.

(** ** Counting *)
Definition cnt (x : nat) (l : list nat) : nat := count_occ Nat.eq_dec l x.
Lemma cnt_app x a b : cnt x (a ++ b) = cnt x a + cnt x b.
Proof. apply count_occ_app. Qed.
Lemma cnt_cons x t l : cnt x (t :: l) = cnt x [t] + cnt x l.
Proof. apply (cnt_app x [t] l). Qed.
Lemma cnt_nil x : cnt x [] = 0. Proof. reflexivity. Qed.
Lemma cnt_lset {A} (f : A -> list nat) x (l : list A) n o o' : nth_error l n = Some o ->
  cnt x (concat (map f (lset l n o'))) + cnt x (f o) = cnt x (concat (map f l)) + cnt x (f o').
Proof.
  intros H. apply nth_error_split in H. destruct H as (a & b & -> & <-).
  rewrite lset_split, !map_app, !concat_app. cbn [map concat]. rewrite !cnt_app. lia.
Qed.
Lemma len_lset {A} (f : A -> list nat) (l : list A) n o o' : nth_error l n = Some o ->
  length (concat (map f (lset l n o'))) + length (f o) = length (concat (map f l)) + length (f o').
Proof.
  intros H. apply nth_error_split in H. destruct H as (a & b & -> & <-).
  rewrite lset_split, !map_app, !concat_app. cbn [map concat]. rewrite !app_length. lia.
Qed.
Lemma count_filter_lset {A} (p : A -> bool) (l : list A) n o o' : nth_error l n = Some o ->
  length (filter p (lset l n o')) + length (filter p [o]) = length (filter p l) + length (filter p [o']).
Proof.
  intros H. apply nth_error_split in H. destruct H as (a & b & -> & <-).
  rewrite lset_split, !filter_app, !app_length. cbn [filter]. destruct (p o), (p o'); cbn [length]; lia.
Qed.
Lemma cnt_perm a b : (forall x, cnt x a = cnt x b) -> Permutation a b.
Proof. intros H. apply (Permutation_count_occ Nat.eq_dec). exact H. Qed.

Definition todos (cs : list client) : list nat := concat (map todo cs).
Lemma todos_start subs : todos (map (fun l => {| todo := l; pending := false |}) subs) = concat subs.
Proof. unfold todos. rewrite map_map. cbn. rewrite map_id. reflexivity. Qed.
Definition pendings (cs : list client) : nat := length (filter pending cs).
Lemma done_todo cs : forallb client_done cs = true -> todos cs = [] /\ pendings cs = 0.
Proof.
  induction cs as [|[td p] cs IH]; cbn; [auto|]. intros H. apply andb_true_iff in H. destruct H as [H1 H2].
  unfold client_done in H1. cbn in H1. destruct td; [|discriminate]. destruct (IH H2). unfold todos, pendings in *. cbn.
  destruct p; [discriminate|]. auto.
Qed.

Lemma forallb_false {A} (f : A -> bool) l : forallb f l = false -> exists i x, nth_error l i = Some x /\ f x = false.
Proof.
  induction l as [|y l IH]; cbn; [discriminate|]. destruct (f y) eqn:E; intros H.
  - destruct (IH H) as (i & x & HA & HB). exists (S i), x. auto.
  - exists 0, y. auto.
Qed.
Lemma concat_nil_nth {A} (f : A -> list nat) l : concat (map f l) = [] \/ exists i x, nth_error l i = Some x /\ f x <> [].
Proof.
  induction l as [|y l [IH|(i & x & HA & HB)]]; cbn; [auto| |].
  - rewrite IH, app_nil_r. destruct (f y) eqn:E; [auto|]. right. exists 0, y. split; [reflexivity|congruence].
  - right. exists (S i), x. auto.
Qed.

(** ** The lock-based pool *)
Definition running (w : worker) : list nat := match w with Running t => [t] | _ => [] end.
Definition alive (w : worker) : bool := match w with Exited => false | _ => true end.
Definition awake (w : worker) : bool := match w with Top | Running _ => true | _ => false end.

Definition load (x : nat) (s : pool) : nat :=
  cnt x (ran s) + cnt x (concat (map running (workers s))) + cnt x (queue s) + cnt x (todos (clients s)).

Record inv (subs : list (list nat)) (nw : nat) (s : pool) : Prop := {
  i_load : forall x, load x s = cnt x (concat subs);
  i_nw : length (workers s) = nw;
  (* a worker leaves, and nobody sleeps, only after stop *)
  i_exit : forall w, nth_error (workers s) w = Some Exited -> stop s = true /\ queue s = [];
  i_wait : stop s = true -> forall w, nth_error (workers s) w <> Some Waiting;
  i_stop : stop s = match dt s with DIdle => false | _ => true end;
  i_dtor : dt s <> DIdle -> forallb client_done (clients s) = true;
  i_join : forall w, match dt s with DIdle => False | DJoin i => w < i | DDone => w < nw end ->
             nth_error (workers s) w = Some Exited;
  (* no lost wakeup *)
  i_wake : 1 <= nw -> queue s <> [] -> 0 < pendings (clients s) \/ exists w x, nth_error (workers s) w = Some x /\ awake x = true }.

Lemma wake_first_nth ws : forall w x, nth_error (wake_first ws) w = Some x ->
  nth_error ws w = Some x \/ nth_error ws w = Some Waiting /\ x = Top.
Proof.
  induction ws as [|y ws IH]; intros w x H; cbn in H; [auto|]. destruct (is_waiting y) eqn:E.
  - destruct y; try discriminate. destruct w; cbn in H; [right; cbn; split; congruence|left; exact H].
  - destruct w; cbn in H; [left; exact H|apply IH; exact H].
Qed.
Lemma wake_first_len ws : length (wake_first ws) = length ws.
Proof. induction ws as [|y ws IH]; cbn; [reflexivity|]. destruct (is_waiting y); cbn; congruence. Qed.
Lemma wake_first_running ws : concat (map running (wake_first ws)) = concat (map running ws).
Proof. induction ws as [|y ws IH]; cbn; [reflexivity|]. destruct y; cbn; congruence. Qed.
Lemma wake_first_alive ws : length (filter alive (wake_first ws)) = length (filter alive ws).
Proof. induction ws as [|y ws IH]; cbn; [reflexivity|]. destruct y; cbn; congruence. Qed.
Lemma notify_nth ws pick w x : nth_error (notify_one ws pick) w = Some x ->
  nth_error ws w = Some x \/ nth_error ws w = Some Waiting /\ x = Top.
Proof.
  unfold notify_one. destruct (nth_error ws pick) as [[| | |]|] eqn:E; try apply wake_first_nth.
  intros H. apply nth_lset_inv in H. destruct H as [(-> & -> & _)|(N & H)]; auto.
Qed.
Lemma notify_len ws pick : length (notify_one ws pick) = length ws.
Proof. unfold notify_one. destruct (nth_error ws pick) as [[| | |]|]; try apply wake_first_len. apply lset_length. Qed.
Lemma notify_running ws pick x : cnt x (concat (map running (notify_one ws pick))) = cnt x (concat (map running ws)).
Proof.
  unfold notify_one. destruct (nth_error ws pick) as [[| | |]|] eqn:E; try (rewrite wake_first_running; reflexivity).
  pose proof (cnt_lset running x _ _ _ Top E). cbn [running] in H. lia.
Qed.
Lemma notify_running_len ws pick : length (concat (map running (notify_one ws pick))) = length (concat (map running ws)).
Proof.
  unfold notify_one. destruct (nth_error ws pick) as [[| | |]|] eqn:E; try (rewrite wake_first_running; reflexivity).
  pose proof (len_lset running _ _ _ Top E). cbn [running] in H. lia.
Qed.
Lemma notify_alive ws pick : length (filter alive (notify_one ws pick)) = length (filter alive ws).
Proof.
  unfold notify_one. destruct (nth_error ws pick) as [[| | |]|] eqn:E; try (apply wake_first_alive).
  pose proof (count_filter_lset alive _ _ _ Top E). cbn [filter alive length] in H. lia.
Qed.
(** Somebody is awake after a notification, unless all have left. *)
Lemma wake_first_awake ws : (exists w, nth_error ws w <> None /\ nth_error ws w <> Some Exited) ->
  exists w x, nth_error (wake_first ws) w = Some x /\ awake x = true.
Proof.
  induction ws as [|y ws IH]; intros (w & H1 & H2); [destruct w; cbn in H1; congruence|]. cbn [wake_first].
  destruct y; cbn [is_waiting].
  - exists 0, Top. auto.
  - exists 0, Top. auto.
  - exists 0, (Running t). auto.
  - destruct w as [|w]; [cbn in H2; congruence|]. destruct IH as (w' & x & A & B); [exists w; auto|].
    exists (S w'), x. auto.
Qed.
Lemma notify_awake ws pick : (exists w, nth_error ws w <> None /\ nth_error ws w <> Some Exited) ->
  exists w x, nth_error (notify_one ws pick) w = Some x /\ awake x = true.
Proof.
  intros H. unfold notify_one. destruct (nth_error ws pick) as [[| | |]|] eqn:E; try (apply wake_first_awake; assumption).
  exists pick, Top. split; [|reflexivity]. apply nth_lset_eq. apply nth_error_Some. congruence.
Qed.
Lemma map_wake_running ws : concat (map running (map wake ws)) = concat (map running ws).
Proof. induction ws as [|[| | |] ws IH]; cbn; congruence. Qed.
Lemma map_wake_alive ws : length (filter alive (map wake ws)) = length (filter alive ws).
Proof. induction ws as [|[| | |] ws IH]; cbn; congruence. Qed.

Section Based.
Variable subs : list (list nat).
Variable nw : nat.
Notation inv := (inv subs nw).

Lemma start_inv : inv (start nw subs).
Proof.
  assert (R : forall n, concat (map running (repeat Top n)) = []) by (induction n; cbn; auto).
  split; cbn [start queue stop workers clients dt ran]; try discriminate; try congruence; auto.
  - intros x. unfold load. cbn [start queue stop workers clients dt ran]. rewrite R, todos_start. reflexivity.
  - apply repeat_length.
  - intros w H. apply nth_error_In, repeat_spec in H. discriminate.
  - intros w [].
Qed.

Lemma client_inv s c pick : inv s -> inv (client_step s c pick).
Proof.
  intros I. unfold client_step. destruct (nth_error (clients s) c) as [[td p]|] eqn:EC; [|exact I]. cbn [todo pending].
  assert (HC : c < length (clients s)) by (apply nth_error_Some; congruence).
  (* a client with something to do: the destructor has not begun *)
  assert (ACT : client_done {| todo := td; pending := p |} = false -> dt s = DIdle).
  { intros H. destruct (dt s) eqn:ED; [reflexivity| |]; exfalso;
      (assert (F := i_dtor _ _ _ I ltac:(congruence)); rewrite forallb_forall in F; apply nth_error_In in EC; apply F in EC; congruence). }
  destruct I as [I1 I2 I3 I4 I5 I6 I7 I8]. destruct p.
  - specialize (ACT ltac:(unfold client_done; cbn; destruct td; reflexivity)). rewrite ACT in *.
    split; cbn [queue stop workers clients dt ran]; rewrite ?ACT.
    + intros x. unfold load in *. cbn [queue stop workers clients dt ran]. rewrite notify_running.
      pose proof (cnt_lset todo x _ _ _ {| todo := td; pending := false |} EC) as H. cbn [todo] in H. unfold todos in *. rewrite <- (I1 x). lia.
    + rewrite notify_len. exact I2.
    + intros w H. apply notify_nth in H. destruct H as [H|[_ H]]; [exact (I3 _ H)|discriminate].
    + rewrite I5. discriminate.
    + exact I5.
    + intros; congruence.
    + intros w [].
    + intros Hnw HQ. right. apply notify_awake.
      exists 0. split; [intros H; apply nth_error_None in H; lia|]. intros H. apply I3 in H. destruct H as [H _]. congruence.
  - destruct td as [|t r]; [split; auto|]. specialize (ACT eq_refl). rewrite ACT in *.
    split; cbn [queue stop workers clients dt ran]; rewrite ?ACT; auto.
    + intros x. unfold load in *. cbn [queue stop workers clients dt ran].
      pose proof (cnt_lset todo x _ _ _ {| todo := r; pending := true |} EC) as H. cbn [todo] in H. unfold todos in *.
      rewrite <- (I1 x). rewrite cnt_cons in H. rewrite cnt_app. lia.
    + intros w H. apply I3 in H. destruct H. congruence.
    + intros _ _. left. unfold pendings.
      pose proof (count_filter_lset pending _ _ _ {| todo := r; pending := true |} EC) as H. cbn [filter pending length] in H. lia.
Qed.

Lemma worker_inv s w : inv s -> inv (worker_step s w).
Proof.
  intros I. unfold worker_step. destruct (nth_error (workers s) w) as [[| |t|]|] eqn:EW; try exact I.
  - destruct I as [I1 I2 I3 I4 I5 I6 I7 I8].
    assert (JN : forall x : worker, forall w', match dt s with DIdle => False | DJoin i => w' < i | DDone => w' < nw end ->
      nth_error (lset (workers s) w x) w' = Some Exited).
    { intros x w' H. rewrite nth_lset_ne; [auto|]. intros <-. apply I7 in H. congruence. }
    destruct (queue s) as [|t q] eqn:EQ.
    + destruct (stop s) eqn:ES.
      * split; cbn [queue stop workers clients dt ran]; auto; try congruence.
        -- intros x. unfold load in *. cbn [queue stop workers clients dt ran].
           pose proof (cnt_lset running x _ _ _ Exited EW) as H. cbn [running] in H. rewrite <- (I1 x), EQ. lia.
        -- rewrite lset_length. exact I2.
        -- intros _ w' H. apply nth_lset_inv in H. destruct H as [(_ & H & _)|(_ & H)]; [discriminate|]. exact (I4 eq_refl _ H).
      * split; cbn [queue stop workers clients dt ran]; auto; try congruence.
        -- intros x. unfold load in *. cbn [queue stop workers clients dt ran].
           pose proof (cnt_lset running x _ _ _ Waiting EW) as H. cbn [running] in H. rewrite <- (I1 x), EQ. lia.
        -- rewrite lset_length. exact I2.
        -- intros w' H. apply nth_lset_inv in H. destruct H as [(_ & H & _)|(_ & H)]; [discriminate|]. exact (I3 _ H).
    + split; cbn [queue stop workers clients dt ran]; auto.
      * intros x. unfold load in *. cbn [queue stop workers clients dt ran].
        pose proof (cnt_lset running x _ _ _ (Running t) EW) as H. cbn [running] in H. rewrite <- (I1 x), EQ. rewrite (cnt_cons x t q). rewrite cnt_nil in H. lia.
      * rewrite lset_length. exact I2.
      * intros w' H. apply nth_lset_inv in H. destruct H as [(_ & H & _)|(_ & H)]; [discriminate|]. destruct (I3 _ H). discriminate.
      * intros ES w' H. apply nth_lset_inv in H. destruct H as [(_ & H & _)|(_ & H)]; [discriminate|]. exact (I4 ES _ H).
      * intros _ _. right. exists w, (Running t). split; [|reflexivity]. apply nth_lset_eq. apply nth_error_Some. congruence.
  - destruct I as [I1 I2 I3 I4 I5 I6 I7 I8]. split; cbn [queue stop workers clients dt ran]; auto.
    + intros x. unfold load in *. cbn [queue stop workers clients dt ran].
      pose proof (cnt_lset running x _ _ _ Top EW) as H. cbn [running] in H. rewrite <- (I1 x). rewrite cnt_app. rewrite cnt_nil in H. lia.
    + rewrite lset_length. exact I2.
    + intros w' H. apply nth_lset_inv in H. destruct H as [(_ & H & _)|(_ & H)]; [discriminate|]. exact (I3 _ H).
    + intros ES w' H. apply nth_lset_inv in H. destruct H as [(_ & H & _)|(_ & H)]; [discriminate|]. exact (I4 ES _ H).
    + intros w' H. rewrite nth_lset_ne; [auto|]. intros <-. apply I7 in H. congruence.
    + intros _ _. right. exists w, Top. split; [|reflexivity]. apply nth_lset_eq. apply nth_error_Some. congruence.
Qed.

Lemma destroy_inv s : inv s -> inv (destroy_step s).
Proof.
  intros I. assert (I0 := I). unfold destroy_step. destruct I as [I1 I2 I3 I4 I5 I6 I7 I8]. destruct (dt s) as [|i|] eqn:ED.
  - destruct (forallb client_done (clients s)) eqn:EF; [|exact I0].
    split; cbn [queue stop workers clients dt ran]; auto.
    + intros x. unfold load in *. cbn [queue stop workers clients dt ran]. rewrite map_wake_running. apply I1.
    + rewrite map_length. exact I2.
    + intros w H. rewrite nth_error_map in H. destruct (nth_error (workers s) w) as [[| | |]|] eqn:E; cbn in H; try discriminate.
      destruct (I3 _ E). congruence.
    + intros _ w H. rewrite nth_error_map in H. destruct (nth_error (workers s) w) as [[| | |]|] eqn:E; cbn in H; discriminate.
    + intros w H. lia.
    + intros Hnw HQ. destruct (I8 Hnw HQ) as [H|(w & x & H1 & H2)].
      * apply done_todo in EF. lia.
      * right. exists w, (wake x). rewrite nth_error_map, H1. split; [reflexivity|]. destruct x; cbn in *; congruence.
  - destruct (nth_error (workers s) i) as [[| | |]|] eqn:EW; try exact I0.
    + split; cbn [queue stop workers clients dt ran]; auto.
      * intros _. apply I6. congruence.
      * intros w H. destruct (Nat.eq_dec w i) as [->|N]; [exact EW|]. apply I7. lia.
    + apply nth_error_None in EW. split; cbn [queue stop workers clients dt ran]; auto.
      * intros _. apply I6. congruence.
      * intros w H. apply I7. lia.
  - exact I0.
Qed.

Lemma step_inv s e : inv s -> inv (step s e).
Proof.
  intros I. destruct e as [c pick|w|w|]; cbn [step].
  - apply client_inv, I.
  - apply worker_inv, I.
  - destruct (nth_error (workers s) w) as [[| | |]|] eqn:EW; try exact I.
    destruct I as [I1 I2 I3 I4 I5 I6 I7 I8]. split; cbn [queue stop workers clients dt ran]; auto.
    + intros x. unfold load in *. cbn [queue stop workers clients dt ran].
      pose proof (cnt_lset running x _ _ _ Top EW) as H. cbn [running] in H. rewrite <- (I1 x). lia.
    + rewrite lset_length. exact I2.
    + intros w' H. apply nth_lset_inv in H. destruct H as [(_ & H & _)|(_ & H)]; [discriminate|]. exact (I3 _ H).
    + intros ES w' H. apply nth_lset_inv in H. destruct H as [(_ & H & _)|(_ & H)]; [discriminate|]. exact (I4 ES _ H).
    + intros w' H. rewrite nth_lset_ne; [auto|]. intros <-. apply I7 in H. congruence.
    + intros _ _. right. exists w, Top. split; [|reflexivity]. apply nth_lset_eq. apply nth_error_Some. congruence.
  - apply destroy_inv, I.
Qed.
Lemma run_inv es : forall s, inv s -> inv (run s es).
Proof. unfold run. induction es as [|e es IH]; intros s I; cbn; [exact I|]. apply IH, step_inv, I. Qed.

(** Everything submitted so far has been run, is running or is queued: each once. *)
Lemma conserved s : inv s ->
  Permutation (ran s ++ concat (map running (workers s)) ++ queue s ++ todos (clients s)) (concat subs).
Proof. intros I. apply cnt_perm. intros x. rewrite !cnt_app, <- (i_load _ _ _ I x). unfold load. lia. Qed.

Lemma all_exited_running ws : (forall w, w < length ws -> nth_error ws w = Some Exited) -> concat (map running ws) = [].
Proof.
  induction ws as [|y ws IH]; intros H; [reflexivity|]. pose proof (H 0 ltac:(cbn; lia)) as H0. cbn in H0. injection H0 as ->.
  cbn. apply IH. intros w Hw. apply (H (S w)). cbn. lia.
Qed.
Lemma destroyed s : inv s -> 1 <= nw -> dt s = DDone -> Permutation (ran s) (concat subs).
Proof.
  intros I Hnw ED. pose proof (conserved s I) as P.
  assert (HJ := i_join _ _ _ I). rewrite ED in HJ.
  rewrite all_exited_running in P by (rewrite (i_nw _ _ _ I); exact HJ).
  destruct (i_exit _ _ _ I 0 (HJ 0 ltac:(lia))) as [_ EQ]. rewrite EQ in P.
  assert (F := i_dtor _ _ _ I ltac:(congruence)). destruct (done_todo _ F) as [ET _]. rewrite ET in P. cbn [app] in P. rewrite app_nil_r in P. exact P.
Qed.

(** ** Progress *)
Inductive thread := HClient (c : nat) | HWorker (w : nat) | HDtor.
Definition member (h : thread) (e : event) : Prop :=
  match h, e with
  | HClient c, EClient c' _ => c = c'
  | HWorker w, EWorker w' => w = w'
  | HDtor, EDestroy => True
  | _, _ => False
  end.
Definition dweight (d : dtor) : nat := match d with DIdle => nw + 3 | DJoin i => S nw - i + 1 | DDone => 0 end.
Definition measure (s : pool) : nat :=
  5 * length (todos (clients s)) + pendings (clients s) + 2 * length (queue s) +
  length (concat (map running (workers s))) + length (filter alive (workers s)) + dweight (dt s).
Definition helpful (h : thread) (s : pool) : Prop :=
  match h with
  | HClient c => exists cl, nth_error (clients s) c = Some cl /\ client_done cl = false
  | HWorker w => (exists t, nth_error (workers s) w = Some (Running t)) \/
                 nth_error (workers s) w = Some Top /\ (queue s <> [] \/ stop s = true)
  | HDtor => match dt s with
             | DIdle => forallb client_done (clients s) = true
             | DJoin i => match nth_error (workers s) i with Some Exited | None => True | _ => False end
             | DDone => False
             end
  end.

Lemma join_bound s i : inv s -> dt s = DJoin i -> i <= nw.
Proof.
  intros I H. destruct (Nat.le_gt_cases i nw) as [L|L]; [exact L|]. exfalso.
  assert (HJ := i_join _ _ _ I). rewrite H in HJ. specialize (HJ nw L).
  assert (nw < length (workers s)) by (apply nth_error_Some; congruence). rewrite (i_nw _ _ _ I) in *. lia.
Qed.

Lemma measure_step s e : inv s -> measure (step s e) <= measure s /\
  (forall h, helpful h s -> member h e -> measure (step s e) < measure s).
Proof.
  intros I. assert (B := i_nw _ _ _ I). destruct e as [c pick|w|w|]; cbn [step].
  - unfold client_step. destruct (nth_error (clients s) c) as [[td p]|] eqn:EC.
    2:{ split; [lia|]. intros [c'|w|] HH HM; cbn in HM; try contradiction. subst c'. destruct HH as (cl & A & _). congruence. }
    cbn [todo pending].
    destruct p.
    + unfold measure. cbn [queue stop workers clients dt ran]. rewrite notify_running_len, notify_alive.
      pose proof (len_lset todo _ _ _ {| todo := td; pending := false |} EC) as H. cbn [todo] in H.
      pose proof (count_filter_lset pending _ _ _ {| todo := td; pending := false |} EC) as H'. cbn [filter pending length] in H'.
      unfold todos, pendings in *. split; intros; lia.
    + destruct td as [|t r].
      * split; [lia|]. intros [c'|w|] HH HM; cbn in HM; try contradiction. subst c'. destruct HH as (cl & A & D). rewrite EC in A. injection A as <-. discriminate.
      * unfold measure. cbn [queue stop workers clients dt ran].
        pose proof (len_lset todo _ _ _ {| todo := r; pending := true |} EC) as H. cbn [todo length] in H.
        pose proof (count_filter_lset pending _ _ _ {| todo := r; pending := true |} EC) as H'. cbn [filter pending length] in H'.
        unfold todos, pendings in *. rewrite app_length. cbn [length]. split; intros; lia.
  - unfold worker_step. destruct (nth_error (workers s) w) as [[| |t|]|] eqn:EW.
    + destruct (queue s) as [|t q] eqn:EQ; [destruct (stop s) eqn:ES|].
      * unfold measure. cbn [queue stop workers clients dt ran]. rewrite EQ.
        pose proof (len_lset running _ _ _ Exited EW) as H. cbn [running length] in H.
        pose proof (count_filter_lset alive _ _ _ Exited EW) as H'. cbn [filter alive length] in H'. split; intros; lia.
      * unfold measure. cbn [queue stop workers clients dt ran]. rewrite EQ.
        pose proof (len_lset running _ _ _ Waiting EW) as H. cbn [running length] in H.
        pose proof (count_filter_lset alive _ _ _ Waiting EW) as H'. cbn [filter alive length] in H'. split; [lia|].
        intros [c'|w'|] HH HM; cbn in HM; try contradiction. subst w'. destruct HH as [[t A]|[_ [A|A]]]; congruence.
      * unfold measure. cbn [queue stop workers clients dt ran]. rewrite EQ. cbn [length].
        pose proof (len_lset running _ _ _ (Running t) EW) as H. cbn [running length] in H.
        pose proof (count_filter_lset alive _ _ _ (Running t) EW) as H'. cbn [filter alive length] in H'. split; intros; lia.
    + split; [lia|]. intros [c'|w'|] HH HM; cbn in HM; try contradiction. subst w'. destruct HH as [[t A]|[A _]]; congruence.
    + unfold measure. cbn [queue stop workers clients dt ran].
      pose proof (len_lset running _ _ _ Top EW) as H. cbn [running length] in H.
      pose proof (count_filter_lset alive _ _ _ Top EW) as H'. cbn [filter alive length] in H'. split; intros; lia.
    + split; [lia|]. intros [c'|w'|] HH HM; cbn in HM; try contradiction. subst w'. destruct HH as [[t A]|[A _]]; congruence.
    + split; [lia|]. intros [c'|w'|] HH HM; cbn in HM; try contradiction. subst w'. destruct HH as [[t A]|[A _]]; congruence.
  - split; [|intros [c'|w'|] HH HM; cbn in HM; contradiction].
    destruct (nth_error (workers s) w) as [[| | |]|] eqn:EW; try lia.
    unfold measure. cbn [queue stop workers clients dt ran].
    pose proof (len_lset running _ _ _ Top EW) as H. cbn [running length] in H.
    pose proof (count_filter_lset alive _ _ _ Top EW) as H'. cbn [filter alive length] in H'. lia.
  - unfold destroy_step. destruct (dt s) as [|i|] eqn:ED.
    + destruct (forallb client_done (clients s)) eqn:EF.
      * unfold measure. cbn [queue stop workers clients dt ran]. rewrite map_wake_running, map_wake_alive, ED. cbn [dweight]. split; intros; lia.
      * split; [lia|]. intros [c'|w'|] HH HM; cbn in HM; try contradiction. cbn in HH. rewrite ED in HH. congruence.
    + pose proof (join_bound s i I ED). destruct (nth_error (workers s) i) as [[| | |]|] eqn:EW.
      4,5: unfold measure; cbn [queue stop workers clients dt ran]; rewrite ED; cbn [dweight]; split; intros; lia.
      all: split; [lia|]; intros [c'|w'|] HH HM; cbn in HM; try contradiction; cbn in HH; rewrite ED, EW in HH; contradiction.
    + split; [lia|]. intros [c'|w'|] HH HM; cbn in HM; try contradiction. cbn in HH. rewrite ED in HH. contradiction.
Qed.

Lemma helpful_persists h s e : inv s -> helpful h s -> measure (step s e) < measure s \/ helpful h (step s e).
Proof.
  intros I HH. destruct (measure_step s e I) as [M0 MD].
  assert (DEC : member h e -> measure (step s e) < measure s) by (intros; eapply MD; eassumption).
  destruct h as [c|w|].
  - (* a client *)
    destruct HH as (cl & A & D). destruct e as [c' pick|w'|w'|]; cbn [step] in *.
    + destruct (Nat.eq_dec c c') as [->|N]; [left; apply DEC; reflexivity|right].
      exists cl. split; [|exact D]. unfold client_step. destruct (nth_error (clients s) c') as [[td p]|] eqn:E; [|exact A].
      cbn [todo pending]. destruct p; [|destruct td; [exact A|]]; cbn [clients]; rewrite nth_lset_ne by congruence; exact A.
    + right. exists cl. split; [|exact D]. unfold worker_step. destruct (nth_error (workers s) w') as [[| | |]|]; try exact A.
      destruct (queue s); [destruct (stop s)|]; exact A.
    + right. exists cl. split; [|exact D]. destruct (nth_error (workers s) w') as [[| | |]|]; exact A.
    + right. exists cl. split; [|exact D]. unfold destroy_step. destruct (dt s) as [|i|]; [|destruct (nth_error (workers s) i) as [[| | |]|]; exact A|exact A].
      destruct (forallb client_done (clients s)); exact A.
  - (* a worker *)
    destruct e as [c' pick|w'|w'|]; cbn [step] in *.
    + right. unfold client_step. destruct (nth_error (clients s) c') as [[td p]|] eqn:E; [|exact HH]. cbn [todo pending].
      assert (NO : forall x, x = Top \/ (exists t, x = Running t) -> nth_error (workers s) w = Some x -> nth_error (notify_one (workers s) pick) w = Some x).
      { intros x Hx A. destruct (nth_error (notify_one (workers s) pick) w) as [y|] eqn:Y.
        - apply notify_nth in Y. destruct Y as [Y|[Y _]]; [congruence|]. rewrite A in Y. injection Y as ->. destruct Hx as [Hx|[t Hx]]; discriminate.
        - apply nth_error_None in Y. rewrite notify_len in Y. assert (w < length (workers s)) by (apply nth_error_Some; congruence). lia. }
      destruct p; [|destruct td; [exact HH|]]; cbn.
      * destruct HH as [[t A]|[A B]]; [left; exists t; apply NO; eauto|right; split; [apply NO; auto|exact B]].
      * destruct HH as [[t A]|[A B]]; [left; exists t; exact A|right; split; [exact A|]]. left. destruct (queue s); discriminate.
    + destruct (Nat.eq_dec w w') as [->|N]; [left; apply DEC; reflexivity|].
      unfold worker_step in *. destruct (nth_error (workers s) w') as [[| |t|]|] eqn:EW; try (right; exact HH).
      * destruct (queue s) as [|t q] eqn:EQ.
        -- right. destruct (stop s) eqn:ES; cbn; rewrite nth_lset_ne by congruence; cbn in HH; rewrite EQ, ES in HH; exact HH.
        -- left. unfold measure. cbn [queue stop workers clients dt ran]. rewrite EQ. cbn [length].
           pose proof (len_lset running _ _ _ (Running t) EW) as H. cbn [running length] in H.
           pose proof (count_filter_lset alive _ _ _ (Running t) EW) as H'. cbn [filter alive length] in H'. lia.
      * right. cbn. rewrite nth_lset_ne by congruence. exact HH.
    + right. destruct (nth_error (workers s) w') as [[| | |]|] eqn:EW; try exact HH. cbn.
      destruct (Nat.eq_dec w w') as [->|N].
      * destruct HH as [[t A]|[A B]]; congruence.
      * rewrite nth_lset_ne by congruence. exact HH.
    + right. unfold destroy_step. destruct (dt s) as [|i|]; [|destruct (nth_error (workers s) i) as [[| | |]|]; exact HH|exact HH].
      destruct (forallb client_done (clients s)); [|exact HH]. cbn. rewrite nth_error_map.
      destruct HH as [[t A]|[A B]]; rewrite A; cbn; [left; eauto|right; auto].
  - (* the destructor *)
    destruct e as [c' pick|w'|w'|]; cbn [step] in *.
    + right. cbn in HH |- *. unfold client_step. destruct (nth_error (clients s) c') as [[td p]|] eqn:E; [|exact HH]. cbn [todo pending].
      assert (FD : forallb client_done (clients s) = true -> p = false /\ td = []).
      { intros F. rewrite forallb_forall in F. apply nth_error_In in E. apply F in E. unfold client_done in E. cbn in E. destruct td; [|discriminate]. destruct p; [discriminate|auto]. }
      assert (FD2 : forallb client_done (clients s) = true).
      { destruct (dt s) eqn:ED; [exact HH| |]; apply (i_dtor _ _ _ I); congruence. }
      destruct (FD FD2) as [-> ->]. exact HH.
    + right. cbn in HH |- *. unfold worker_step. destruct (nth_error (workers s) w') as [[| |t|]|] eqn:EW; try exact HH.
      * assert (G : forall x, x <> Top -> match dt s with DIdle => forallb client_done (clients s) = true
           | DJoin i => match nth_error (lset (workers s) w' x) i with Some Exited | None => True | _ => False end | DDone => False end).
        { intros x Hx. destruct (dt s) as [|i|]; try exact HH. destruct (Nat.eq_dec w' i) as [->|N]; [rewrite EW in HH; contradiction|].
          rewrite nth_lset_ne by congruence. exact HH. }
        destruct (queue s); [destruct (stop s)|]; cbn; apply G; discriminate.
      * cbn. destruct (dt s) as [|i|]; try exact HH. destruct (Nat.eq_dec w' i) as [->|N]; [rewrite EW in HH; contradiction|].
        rewrite nth_lset_ne by congruence. exact HH.
    + right. destruct (nth_error (workers s) w') as [[| | |]|] eqn:EW; try exact HH. cbn in HH |- *.
      destruct (dt s) as [|i|]; try exact HH. destruct (Nat.eq_dec w' i) as [->|N]; [rewrite EW in HH; contradiction|].
      rewrite nth_lset_ne by congruence. exact HH.
    + left. apply DEC. exact Logic.I.
Qed.


(** Somebody can always make progress until the pool is destroyed. *)
Lemma someone_destroys s : inv s -> dt s = DDone \/ exists h, helpful h s.
Proof.
  intros I. destruct (forallb client_done (clients s)) eqn:EF.
  2:{ right. destruct (forallb_false _ _ EF) as (c & cl & A & B). exists (HClient c), cl. auto. }
  destruct (dt s) as [|i|] eqn:ED; [right|right|left; reflexivity].
  - exists HDtor. cbn. rewrite ED. exact EF.
  - assert (ES : stop s = true) by (rewrite (i_stop _ _ _ I), ED; reflexivity).
    destruct (nth_error (workers s) i) as [[| |t|]|] eqn:EW.
    + exists (HWorker i). right. auto.
    + exfalso. exact (i_wait _ _ _ I ES i EW).
    + exists (HWorker i). left. eauto.
    + exists HDtor. cbn. rewrite ED, EW. exact Logic.I.
    + exists HDtor. cbn. rewrite ED, EW. exact Logic.I.
Qed.
(** ... and, whether or not it is destroyed, until every task has been run. *)
Lemma someone_runs s : 1 <= nw -> inv s -> Permutation (ran s) (concat subs) \/ exists h, helpful h s /\ h <> HDtor.
Proof.
  intros Hnw I. destruct (forallb client_done (clients s)) eqn:EF.
  2:{ right. destruct (forallb_false _ _ EF) as (c & cl & A & B). exists (HClient c). split; [exists cl; auto|discriminate]. }
  destruct (done_todo _ EF) as [ET EP].
  destruct (queue s) as [|t q] eqn:EQ.
  - destruct (concat_nil_nth running (workers s)) as [EN|(w & x & A & B)].
    + left. pose proof (conserved s I) as P. rewrite EN, EQ, ET in P. cbn [app] in P. rewrite app_nil_r in P. exact P.
    + right. exists (HWorker w). split; [|discriminate]. left. destruct x; cbn in B; try congruence. eauto.
  - right. destruct (i_wake _ _ _ I Hnw) as [H|(w & x & A & B)]; [rewrite EQ; discriminate|lia|].
    exists (HWorker w). split; [|discriminate]. destruct x; cbn in B; try discriminate.
    + right. split; [exact A|]. left. rewrite EQ. discriminate.
    + left. eauto.
Qed.
End Based.

(** ** The lock-free pool *)
Definition frunning (w : fworker) : list nat := match w with FRunning t => [t] | _ => [] end.
Definition fholds (w : fworker) : list nat := match w with FRunning t | FGot t => [t] | _ => [] end.

Definition fload (x : nat) (s : fpool) : nat :=
  cnt x (fran s) + cnt x (concat (map fholds (fworkers s))) + cnt x (fqueue s) + cnt x (fdropped s) + cnt x (todos (fclients s)).
Record finv (subs : list (list nat)) (nw : nat) (s : fpool) : Prop := {
  fi_load : forall x, fload x s = cnt x (concat subs);
  fi_nw : length (fworkers s) = nw;
  fi_pend : forall c cl, nth_error (fclients s) c = Some cl -> pending cl = false;
  fi_drop : fstop s = false -> fdropped s = [] /\ forall w, nth_error (fworkers s) w <> Some FExited }.

Section Free.
Variable subs : list (list nat).
Variable nw cap : nat.
Notation finv := (finv subs nw).

Lemma fstart_inv : finv (fstart nw subs).
Proof.
  assert (R : forall n, concat (map fholds (repeat FTop n)) = []) by (induction n; cbn; auto).
  split; cbn [fstart fqueue fstop fworkers fclients fdt fran fdropped].
  - intros x. unfold fload. cbn [fstart fqueue fstop fworkers fclients fdt fran fdropped]. rewrite R, todos_start. reflexivity.
  - apply repeat_length.
  - intros c cl H. rewrite nth_error_map in H. destruct (nth_error subs c); cbn in H; [injection H as <-; reflexivity|discriminate].
  - intros _. split; [reflexivity|]. intros w H. apply nth_error_In, repeat_spec in H. discriminate.
Qed.

Ltac fld := cbn [fqueue fstop fworkers fclients fdt fran fdropped].

Lemma fworker_inv s w : finv s -> finv (fworker_step s w).
Proof.
  intros I. assert (I0 := I). destruct I as [I1 I2 I3 I4]. unfold fworker_step.
  destruct (nth_error (fworkers s) w) as [o|] eqn:EW; [|exact I0].
  assert (G : forall q x r d, (forall y, cnt y r + cnt y (fholds x) + cnt y q + cnt y d = cnt y (fran s) + cnt y (fholds o) + cnt y (fqueue s) + cnt y (fdropped s)) ->
    (fstop s = false -> d = fdropped s /\ x <> FExited) ->
    finv {| fqueue := q; fstop := fstop s; fworkers := lset (fworkers s) w x; fclients := fclients s; fdt := fdt s; fran := r; fdropped := d |}).
  { intros q x r d HB HE. split; fld; auto.
    - intros y. rewrite <- (I1 y). unfold fload. fld. pose proof (cnt_lset fholds y _ _ _ x EW). specialize (HB y). lia.
    - rewrite lset_length. exact I2.
    - intros ES. destruct (HE ES) as [-> Hx]. destruct (I4 ES) as [A B]. split; [exact A|].
      intros w' H. apply nth_lset_inv in H. destruct H as [(_ & H & _)|(_ & H)]; [congruence|]. exact (B _ H). }
  destruct o as [| | |t|t|].
  - destruct (fqueue s) as [|t q] eqn:EQ; apply G; try (intros; split; [reflexivity|discriminate]); intros y; rewrite ?EQ; cbn [fholds]; [lia|].
    rewrite (cnt_cons y t q), cnt_nil. lia.
  - apply G; [intros y; destruct (fstop s); reflexivity|]. intros ->. split; [reflexivity|discriminate].
  - apply G; [intros y; destruct (fstop s); reflexivity|]. intros ->. split; [reflexivity|discriminate].
  - destruct (fstop s) eqn:ES; apply G; try (intros; split; [congruence|congruence]); intros y; cbn [fholds]; rewrite ?cnt_app, ?cnt_nil; lia.
  - apply G; [intros y; cbn [fholds]; rewrite cnt_app, cnt_nil; lia|]. intros _. split; [reflexivity|discriminate].
  - exact I0.
Qed.

Lemma fstep_inv s e : finv s -> finv (fstep cap s e).
Proof.
  intros I. destruct e as [c pick|w|w|]; cbn [fstep].
  - unfold fclient_step. destruct (nth_error (fclients s) c) as [[td p]|] eqn:EC; [|exact I]. cbn [todo pending].
    destruct td as [|t r]; [exact I|]. destruct (length (fqueue s) <? cap); [|exact I].
    destruct I as [I1 I2 I3 I4]. split; fld; auto.
    + intros x. rewrite <- (I1 x). unfold fload. fld.
      pose proof (cnt_lset todo x _ _ _ {| todo := r; pending := false |} EC) as H. cbn [todo] in H. unfold todos.
      rewrite cnt_cons in H. rewrite cnt_app. lia.
    + intros c' cl H. apply nth_lset_inv in H. destruct H as [(_ & -> & _)|(_ & H)]; [reflexivity|eauto].
  - apply fworker_inv, I.
  - exact I.
  - unfold fdestroy_step. destruct I as [I1 I2 I3 I4]. destruct (fdt s) as [|i|].
    + destruct (forallb client_done (fclients s)); split; fld; auto. discriminate.
    + destruct (nth_error (fworkers s) i) as [[| | | | |]|]; split; fld; auto.
    + split; auto.
Qed.
Lemma frun_inv es : forall s, finv s -> finv (frun cap s es).
Proof. unfold frun. induction es as [|e es IH]; intros s I; cbn; [exact I|]. apply IH, fstep_inv, I. Qed.

Lemma fconserved s : finv s ->
  Permutation (fran s ++ concat (map fholds (fworkers s)) ++ fqueue s ++ fdropped s ++ todos (fclients s)) (concat subs).
Proof. intros I. apply cnt_perm. intros x. rewrite !cnt_app, <- (fi_load _ _ _ I x). unfold fload. lia. Qed.

(** Once stop is set no further task is started. *)
Lemma stopped_step s e : fstop s = true -> fstop (fstep cap s e) = true /\
  forall x, cnt x (fran (fstep cap s e)) + cnt x (concat (map frunning (fworkers (fstep cap s e)))) =
            cnt x (fran s) + cnt x (concat (map frunning (fworkers s))).
Proof.
  intros ES. destruct e as [c pick|w|w|]; cbn [fstep].
  - unfold fclient_step. destruct (nth_error (fclients s) c) as [[td p]|]; [|auto]. cbn [todo]. destruct td; [auto|].
    destruct (length (fqueue s) <? cap); auto.
  - unfold fworker_step. destruct (nth_error (fworkers s) w) as [o|] eqn:EW; [|auto]. rewrite ES.
    pose proof (fun x y => cnt_lset frunning x _ _ _ y EW) as H.
    destruct o as [| | |t|t|]; [destruct (fqueue s)| | | | |]; fld; auto; (split; [exact ES || reflexivity|]); intros x;
      match goal with |- context [lset _ _ ?y] => specialize (H x y); cbn [frunning] in H; rewrite ?cnt_app; rewrite ?cnt_nil in *; lia end.
  - auto.
  - unfold fdestroy_step. destruct (fdt s) as [|i|]; [|destruct (nth_error (fworkers s) i) as [[| | | | |]|]; auto|auto].
    destruct (forallb client_done (fclients s)); auto.
Qed.
Lemma stopped_run es : forall s, fstop s = true ->
  Permutation (fran (frun cap s es) ++ concat (map frunning (fworkers (frun cap s es)))) (fran s ++ concat (map frunning (fworkers s))).
Proof.
  unfold frun. induction es as [|e es IH]; intros s ES; cbn [fold_left]; [reflexivity|].
  destruct (stopped_step s e ES) as [ES' HC]. rewrite (IH _ ES'). apply cnt_perm. intros x. rewrite !cnt_app. apply HC.
Qed.

(** *** Progress while it is not being destroyed *)
Definition fweight (w : fworker) : nat := match w with FGot _ => 2 | FRunning _ => 1 | _ => 0 end.
Definition fmeasure (s : fpool) : nat :=
  4 * length (todos (fclients s)) + 3 * length (fqueue s) + list_sum (map fweight (fworkers s)) +
  (if fstop s then 0 else 1).
Lemma sum_lset {A} (f : A -> nat) (l : list A) n o o' : nth_error l n = Some o ->
  list_sum (map f (lset l n o')) + f o = list_sum (map f l) + f o'.
Proof.
  intros H. apply nth_error_split in H. destruct H as (a & b & -> & <-). rewrite lset_split, !map_app, !list_sum_app.
  cbn [map]. change (list_sum (f o' :: map f b)) with (f o' + list_sum (map f b)).
  change (list_sum (f o :: map f b)) with (f o + list_sum (map f b)). lia.
Qed.


Definition fhelpful (h : thread) (s : fpool) : Prop :=
  fstop s = false /\
  match h with
  | HClient c => length (fqueue s) < cap /\ exists cl, nth_error (fclients s) c = Some cl /\ todo cl <> []
  | HWorker w => exists o, nth_error (fworkers s) w = Some o /\ o <> FExited /\ (fqueue s <> [] \/ fholds o <> [])
  | HDtor => False
  end.
Definition frank (h : thread) (s : fpool) : nat :=
  match h with
  | HWorker w => match nth_error (fworkers s) w with Some FEmpty | Some FLast => 1 | _ => 0 end
  | _ => 0
  end.

Lemma fmeasure_le s e : fmeasure (fstep cap s e) <= fmeasure s.
Proof.
  unfold fmeasure. destruct e as [c pick|w|w|]; cbn [fstep]; [| |lia|].
  - unfold fclient_step. destruct (nth_error (fclients s) c) as [[td p]|] eqn:EC; [|lia]. cbn [todo]. destruct td as [|t r]; [lia|].
    destruct (length (fqueue s) <? cap); [|lia]. fld.
    pose proof (len_lset todo _ _ _ {| todo := r; pending := false |} EC) as H. cbn [todo length] in H. unfold todos. rewrite app_length. cbn [length]. lia.
  - unfold fworker_step. destruct (nth_error (fworkers s) w) as [o|] eqn:EW; [|lia].
    pose proof (fun y => sum_lset fweight _ _ _ y EW) as H.
    destruct o as [| | |t|t|].
    + destruct (fqueue s) as [|t q]; fld.
      * specialize (H FEmpty). cbn [fweight length] in *. lia.
      * specialize (H (FGot t)). cbn [fweight length] in *. lia.
    + fld. specialize (H (if fstop s then FLast else FTop)). destruct (fstop s); cbn [fweight] in *; lia.
    + fld. specialize (H (if fstop s then FExited else FTop)). destruct (fstop s); cbn [fweight] in *; lia.
    + destruct (fstop s) eqn:ES; fld; rewrite ?ES; [specialize (H FExited)|specialize (H (FRunning t))]; cbn [fweight] in *; lia.
    + fld. specialize (H FTop). cbn [fweight] in *. lia.
    + lia.
  - unfold fdestroy_step. destruct (fdt s) as [|i|]; [|destruct (nth_error (fworkers s) i) as [[| | | | |]|]; fld; lia|lia].
    destruct (forallb client_done (fclients s)); fld; [|lia]. destruct (fstop s); lia.
Qed.

Lemma fdecrease h s e : finv s -> fhelpful h s -> member h e ->
  fmeasure (fstep cap s e) < fmeasure s \/ fhelpful h (fstep cap s e) /\ frank h (fstep cap s e) < frank h s.
Proof.
  intros I (ES & HH) HM. destruct h as [c|w|]; destruct e as [c' pick|w'|w'|]; cbn in HM; try contradiction.
  - subst c'. left. destruct HH as (HC & [td p] & EC & HT). cbn [fstep]. unfold fclient_step. rewrite EC. cbn [todo] in *.
    destruct td as [|t r]; [congruence|]. destruct (Nat.ltb_spec (length (fqueue s)) cap); [|lia]. unfold fmeasure. fld.
    pose proof (len_lset todo _ _ _ {| todo := r; pending := false |} EC) as H'. cbn [todo length] in H'. unfold todos. rewrite app_length. cbn [length]. lia.
  - subst w'. destruct HH as (o & EW & NX & HQ). cbn [fstep]. unfold fworker_step. rewrite EW.
    pose proof (fun y => sum_lset fweight _ _ _ y EW) as H.
    assert (HW : w < length (fworkers s)) by (apply nth_error_Some; congruence).
    unfold fhelpful, frank, fmeasure.
    destruct o as [| | |t|t|]; cbn [fholds] in HQ; try congruence.
    + destruct (fqueue s) as [|t q] eqn:EQ; [destruct HQ; congruence|]. left. fld. specialize (H (FGot t)). cbn [fweight length] in *. lia.
    + rewrite ES. right. fld. rewrite nth_lset_eq by exact HW. rewrite EW. split; [|lia]. split; [reflexivity|].
      exists FTop. split; [reflexivity|]. split; [discriminate|]. destruct HQ; [left; assumption|congruence].
    + rewrite ES. right. fld. rewrite nth_lset_eq by exact HW. rewrite EW. split; [|lia]. split; [reflexivity|].
      exists FTop. split; [reflexivity|]. split; [discriminate|]. destruct HQ; [left; assumption|congruence].
    + rewrite ES. left. fld. rewrite ?ES. specialize (H (FRunning t)). cbn [fweight] in *. lia.
    + left. fld. specialize (H FTop). cbn [fweight] in *. lia.
Qed.

Lemma fpersist h s e : finv s -> fhelpful h s ->
  fmeasure (fstep cap s e) < fmeasure s \/ fhelpful h (fstep cap s e) /\ frank h (fstep cap s e) <= frank h s.
Proof.
  intros I HH. assert (DEC : member h e -> fmeasure (fstep cap s e) < fmeasure s \/ fhelpful h (fstep cap s e) /\ frank h (fstep cap s e) <= frank h s).
  { intros M. destruct (fdecrease h s e I HH M) as [L|[A B]]; [left; exact L|right; split; [exact A|lia]]. }
  assert (SAME : fstep cap s e = s -> fmeasure (fstep cap s e) < fmeasure s \/ fhelpful h (fstep cap s e) /\ frank h (fstep cap s e) <= frank h s).
  { intros ->. right. auto. }
  destruct e as [c' pick|w'|w'|].
  - (* a push: progress, or nothing *)
    cbn [fstep] in *. revert SAME. unfold fclient_step. destruct (nth_error (fclients s) c') as [[td p]|] eqn:EC; [|intros SAME; apply SAME; reflexivity].
    cbn [todo]. destruct td as [|t r]; [intros SAME; apply SAME; reflexivity|].
    destruct (length (fqueue s) <? cap); [|intros SAME; apply SAME; reflexivity]. intros _. left. unfold fmeasure. fld.
    pose proof (len_lset todo _ _ _ {| todo := r; pending := false |} EC) as H'. cbn [todo length] in H'. unfold todos. rewrite app_length. cbn [length]. lia.
  - destruct HH as (ES & HH). destruct h as [c|w|]; [| |contradiction].
    + (* a worker's step while a client could push *)
      destruct HH as (HC & HT). cbn [fstep] in *. unfold fworker_step, fhelpful, frank.
      destruct (nth_error (fworkers s) w') as [o|] eqn:EW; [|right; auto].
      right. split; [|lia]. destruct o as [| | |t|t|]; [destruct (fqueue s) eqn:EQ| | | | |]; rewrite ?ES; fld; rewrite ?EQ; cbn [length] in *; (split; [exact ES || reflexivity|split; [lia|exact HT]]).
    + destruct (Nat.eq_dec w w') as [->|N]; [apply DEC; reflexivity|].
      cbn [fstep] in *. clear DEC SAME. unfold fworker_step.
      destruct (nth_error (fworkers s) w') as [o|] eqn:EW; [|right; split; [split; assumption|lia]].
      destruct o as [| | |t|t|]; [destruct (fqueue s) as [|t q] eqn:EQ| | | | |].
      * right. unfold fhelpful, frank. fld. rewrite nth_lset_ne by congruence. auto.
      * left. unfold fmeasure. fld. pose proof (sum_lset fweight _ _ _ (FGot t) EW) as H. rewrite EQ. cbn [fweight length] in *. lia.
      * right. unfold fhelpful, frank. rewrite ES. fld. rewrite nth_lset_ne by congruence. auto.
      * right. unfold fhelpful, frank. rewrite ES. fld. rewrite nth_lset_ne by congruence. auto.
      * right. unfold fhelpful, frank. rewrite ES. fld. rewrite nth_lset_ne by congruence. auto.
      * right. unfold fhelpful, frank. fld. rewrite nth_lset_ne by congruence. auto.
      * right. unfold fhelpful, frank. auto.
  - apply SAME. reflexivity.
  - (* destruction begins: the measure drops *)
    destruct HH as (ES & HH). cbn [fstep] in *. unfold fdestroy_step. destruct (fdt s) as [|i|] eqn:ED.
    + destruct (forallb client_done (fclients s)); [|right; unfold fhelpful; auto].
      left. unfold fmeasure. fld. rewrite ES. lia.
    + right. destruct (nth_error (fworkers s) i) as [[| | | | |]|]; unfold fhelpful, frank; fld; auto.
    + right. unfold fhelpful. auto.
Qed.

Lemma fsomeone s : 1 <= nw -> 1 <= cap -> finv s -> (Permutation (fran s) (concat subs) \/ fstop s = true) \/ exists h, fhelpful h s.
Proof.
  intros Hnw Hcap I. destruct (fstop s) eqn:ES; [left; auto|]. destruct (fi_drop _ _ _ I ES) as [ED NX].
  assert (W0 : fqueue s <> [] -> fhelpful (HWorker 0) s).
  { intros HQ. split; [exact ES|]. destruct (nth_error (fworkers s) 0) as [o|] eqn:E0.
    - exists o. split; [reflexivity|]. split; [|left; exact HQ]. intros ->. exact (NX 0 E0).
    - apply nth_error_None in E0. rewrite (fi_nw _ _ _ I) in E0. lia. }
  destruct (fqueue s) as [|t q] eqn:EQ; [|right; exists (HWorker 0); apply W0; discriminate].
  destruct (concat_nil_nth todo (fclients s)) as [ET|(c & cl & EC & HT)].
  - destruct (concat_nil_nth fholds (fworkers s)) as [EH|(w & o & EW & HO)].
    + left. left. pose proof (fconserved s I) as P. rewrite EH, EQ, ED in P. unfold todos in P. rewrite ET in P. cbn [app] in P.
      rewrite app_nil_r in P. exact P.
    + right. exists (HWorker w). split; [exact ES|]. exists o. split; [exact EW|]. split; [intros ->; cbn in HO; congruence|right; exact HO].
  - right. exists (HClient c). split; [exact ES|]. split; [rewrite EQ; cbn; lia|]. exists cl. auto.
Qed.

Lemma never_stopped es : (forall e, In e es -> e <> EDestroy) -> forall s, fstop (frun cap s es) = fstop s.
Proof.
  unfold frun. induction es as [|e es IH]; intros H s; cbn [fold_left]; [reflexivity|].
  rewrite IH by (intros e' He'; apply H; right; exact He'). specialize (H e (or_introl eq_refl)).
  destruct e as [c pick|w|w|]; cbn [fstep]; [| |reflexivity|congruence].
  - unfold fclient_step. destruct (nth_error (fclients s) c) as [[td p]|]; [|reflexivity]. cbn [todo]. destruct td; [reflexivity|].
    destruct (length (fqueue s) <? cap); reflexivity.
  - unfold fworker_step. destruct (nth_error (fworkers s) w) as [[| | |t|t|]|]; try reflexivity; [destruct (fqueue s)|destruct (fstop s) eqn:E]; try reflexivity; exact E.
Qed.
End Free.
