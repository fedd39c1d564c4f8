(** Building a graph, ordering it, turning it into a session, grouping it. *)
From Verif Require Import Base ListAux FmtModel FmtSpec GraphModel GraphSpec NameProofs.
Ltac Zify.zify_post_hook ::= Z.to_euclidean_division_equations.

(** ** Lists *)
Lemma nodup_app_iff {A} (l l' : list A) :
  NoDup (l ++ l') <-> NoDup l /\ NoDup l' /\ (forall x, In x l -> ~ In x l').
Proof.
  induction l as [|a l IH]; cbn.
  - split; [intros H; repeat split; [constructor|assumption|intros x []]|intros (_ & H & _); assumption].
  - rewrite !NoDup_cons_iff, IH, in_app_iff. firstorder (subst; auto).
Qed.
Lemma nth_error_snoc {A} (l : list A) x i y : nth_error (l ++ [x]) i = Some y ->
  nth_error l i = Some y \/ (i = length l /\ y = x).
Proof.
  intros H. destruct (Nat.lt_ge_cases i (length l)) as [L|L].
  - left. rewrite nth_error_app1 in H; assumption.
  - right. rewrite nth_error_app2 in H by assumption. destruct (i - length l)%nat as [|k] eqn:E.
    + injection H as <-. split; [lia|reflexivity].
    + cbn in H. destruct k; discriminate.
Qed.
Lemma nth_error_lt {A} (l : list A) i x : nth_error l i = Some x -> (i < length l)%nat.
Proof. intros H. apply nth_error_Some. congruence. Qed.
Lemma nth_error_ex {A} (l : list A) i : (i < length l)%nat -> exists x, nth_error l i = Some x.
Proof. intros H. apply nth_error_Some in H. destruct (nth_error l i); [eauto|congruence]. Qed.
Lemma rd_nth {A} (l : list A) i x : nth_error l i = Some x -> rd l i = Ok x.
Proof. intros H. unfold rd. rewrite H. reflexivity. Qed.
Lemma snoc_split {A} (l a b : list A) x y : l ++ [x] = a ++ y :: b ->
  (b = [] /\ y = x /\ a = l) \/ exists b', b = b' ++ [x] /\ l = a ++ y :: b'.
Proof.
  destruct (exists_last (l := y :: b)) as (c & z & E); [discriminate|].
  intros H. rewrite E, app_assoc in H. apply app_inj_tail in H. destruct H as (H & <-).
  destruct c as [|y' c]; cbn in E.
  - injection E as -> ->. left. rewrite app_nil_r in H. auto.
  - injection E as <- ->. right. exists c. auto.
Qed.
Lemma map_res_forall2 {A B} (f : A -> res B) (R : A -> B -> Prop) l :
  (forall a, In a l -> exists b, f a = Ok b /\ R a b) ->
  exists bs, map_res f l = Ok bs /\ Forall2 R l bs.
Proof.
  induction l as [|a l IH]; intros H; [exists []; split; [reflexivity|constructor]|].
  destruct (H a (or_introl eq_refl)) as (b & E & Hb).
  destruct IH as (bs & E' & Hbs); [intros x Hx; apply H; right; assumption|].
  exists (b :: bs). cbn [map_res]. rewrite E, E'. split; [reflexivity|constructor; assumption].
Qed.
Lemma forall2_nth {A B} (R : A -> B -> Prop) l l' : Forall2 R l l' ->
  forall i a, nth_error l i = Some a -> exists b, nth_error l' i = Some b /\ R a b.
Proof.
  induction 1 as [|a b l l' Hab H IH]; intros [|i] x E; cbn in *; try discriminate; [|eauto].
  injection E as <-. eauto.
Qed.
Lemma forall2_length {A B} (R : A -> B -> Prop) l l' : Forall2 R l l' -> length l = length l'.
Proof. induction 1; cbn; congruence. Qed.

Lemma combine_seq_in {A} (l : list A) s i a :
  In (i, a) (combine (seq s (length l)) l) <-> (s <= i)%nat /\ nth_error l (i - s) = Some a.
Proof.
  revert s. induction l as [|x l IH]; intros s; cbn.
  - split; [intros []|intros (_ & H)]. destruct (i - s)%nat; discriminate.
  - rewrite IH. split.
    + intros [E|(H1 & H2)].
      * injection E as <- <-. rewrite Nat.sub_diag. auto.
      * split; [lia|]. replace (i - s)%nat with (S (i - S s)) by lia. assumption.
    + intros (H1 & H2). destruct (Nat.eq_dec i s) as [->|N].
      * rewrite Nat.sub_diag in H2. injection H2 as ->. auto.
      * right. split; [lia|]. replace (i - s)%nat with (S (i - S s)) in H2 by lia. assumption.
Qed.

(** ** Graphs that users build *)
Definition ordered (g : list gnode) : Prop :=
  forall n nd e, nth_error g n = Some nd -> In e (n_ins nd) -> (fst e < n)%nat.
Definition distinct_keys (g : list gnode) : Prop := NoDup (flat_map n_outs g).

Lemma ordered_acyclic g : ordered g -> acyclic g.
Proof.
  intros H. apply (well_founded_lt_compat nat (fun n => n)). intros m n (nd & i & E & I).
  apply (H n nd (m, i) E I).
Qed.


Lemma entryb_spec g e : entryb g e = true <-> entry g e.
Proof.
  unfold entryb, entry. destruct (nth_error g (fst e)) as [nd|]; split; intros H.
  - exists nd. split; [reflexivity|]. apply Nat.ltb_lt. assumption.
  - destruct H as (nd' & [= <-] & H). apply Nat.ltb_lt. assumption.
  - discriminate.
  - destruct H as (? & ? & _). discriminate.
Qed.
Lemma entry_app g g' e : entry g e -> entry (g ++ g') e.
Proof.
  intros (nd & E & H). exists nd. split; [|assumption].
  rewrite nth_error_app1; [assumption|]. apply nth_error_lt in E. assumption.
Qed.

Lemma extend_shape g nd : ordered g -> closed g -> Forall (entry g) (n_ins nd) ->
  ordered (g ++ [nd]) /\ closed (g ++ [nd]).
Proof.
  intros Ho Hc Hn. rewrite Forall_forall in Hn. split.
  - intros n nd' e E I. apply nth_error_snoc in E. destruct E as [E|(-> & ->)]; [apply (Ho n nd' e E I)|].
    destruct (Hn e I) as (md & E & _). apply nth_error_lt in E. assumption.
  - intros n nd' e E I. apply entry_app. apply nth_error_snoc in E.
    destruct E as [E|(-> & ->)]; [apply (Hc n nd' e E I)|apply (Hn e I)].
Qed.

Record binv (st : gstate) (used : list key) : Prop := {
  b_ord : ordered (gs_nodes st);
  b_closed : closed (gs_nodes st);
  b_sigs : Forall (fun s => 0 <= s < two64) (gs_sigs st);
  b_keys : distinct_keys (gs_nodes st);
  b_src : forall k, In k (flat_map n_outs (gs_nodes st)) ->
     (plain_name k /\ In k used) \/
     exists s i, In s (gs_sigs st) /\ Z.of_nat i < two64 /\ k = entry_key s i }.

Lemma keys_snoc g nd : flat_map n_outs (g ++ [nd]) = flat_map n_outs g ++ n_outs nd.
Proof. rewrite flat_map_app. cbn. rewrite app_nil_r. reflexivity. Qed.

Lemma extend_op bh st used fuel seed sg sigs k op args :
  (forall s, 0 <= bh s < two64) -> binv st used ->
  gen_uniq_signature fuel bh (gs_sigs st) seed = Ok (sg, sigs) ->
  Z.of_nat k <= two64 -> Forall (entry (gs_nodes st)) args ->
  binv {| gs_nodes := gs_nodes st ++ [{| n_var := false; n_op := op; n_ins := args;
            n_outs := map (entry_key sg) (seq 0 k) |}]; gs_sigs := sigs |} used.
Proof.
  intros Hb [O C SG K SRC] E Hk Ha. unfold gen_uniq_signature in E.
  destruct (sig_loop fuel (gs_sigs st) (bh seed) (bh seed) 1) as [r| | |] eqn:EL; try discriminate.
  injection E as -> <-. pose proof (sig_loop_fresh _ _ _ _ _ _ EL) as F.
  pose proof (sig_loop_range _ _ _ _ _ _ (Hb seed) EL) as R.
  rewrite Forall_forall in SG.
  destruct (extend_shape (gs_nodes st) {| n_var := false; n_op := op; n_ins := args;
            n_outs := map (entry_key sg) (seq 0 k) |} O C Ha) as (O' & C').
  constructor; cbn [gs_nodes gs_sigs]; [assumption|assumption| | |].
  - constructor; [assumption|apply Forall_forall; assumption].
  - unfold distinct_keys. rewrite keys_snoc. cbn [n_outs]. apply nodup_app_iff.
    split; [assumption|]. split.
    + apply nodup_map_in; [|apply seq_NoDup]. intros a b Ia Ib. rewrite in_seq in Ia, Ib.
      intros Ek. apply entry_key_inj in Ek; lia.
    + intros x I I'. apply in_map_iff in I'. destruct I' as (i & <- & Ii). rewrite in_seq in Ii.
      destruct (SRC _ I) as [(P & _)|(s & j & Is & Ij & Ek)].
      * revert P. apply entry_key_plain. assumption.
      * apply entry_key_inj in Ek; [|lia|apply SG; assumption|lia|lia]. destruct Ek as (-> & _). auto.
  - intros x. rewrite keys_snoc. cbn [n_outs]. rewrite in_app_iff. intros [I|I].
    + destruct (SRC _ I) as [P|(s & j & Is & Ij & Ek)]; [left; assumption|right].
      exists s, j. split; [right; assumption|auto].
    + apply in_map_iff in I. destruct I as (i & <- & Ii). rewrite in_seq in Ii. right.
      exists sg, i. split; [left; reflexivity|]. split; [lia|reflexivity].
Qed.

Lemma build_inv fuel bh prog st st' used : (forall s, 0 <= bh s < two64) -> binv st used ->
  build fuel bh st prog = Ok st' -> small_outputs prog ->
  NoDup (used ++ var_names prog) -> Forall plain_name (var_names prog) ->
  binv st' (used ++ var_names prog).
Proof.
  intros Hb. revert st used. induction prog as [|o prog IH]; intros st used B E SO ND PN; cbn [build] in E.
  { injection E as <-. cbn. rewrite app_nil_r. assumption. }
  inversion SO as [|? ? Ho SO']; subst.
  destruct (build_step fuel bh st o) as [st1| | |] eqn:E1; try discriminate. cbn [bind] in E.
  destruct o as [name|op seed|op args k seed]; cbn [build_step] in E1.
  - injection E1 as <-. unfold var_names in ND, PN. cbn [flat_map app] in ND, PN. fold (var_names prog) in ND, PN.
    change (var_names (BVar name :: prog)) with ([name] ++ var_names prog). rewrite app_assoc.
    inversion PN as [|? ? P1 PN']; subst.
    apply (IH _ (used ++ [name])) with (2 := E); [|assumption|rewrite <- app_assoc; assumption|assumption].
    destruct B as [O C SG K SRC].
    destruct (extend_shape (gs_nodes st) {| n_var := true; n_op := 0; n_ins := []; n_outs := [name] |} O C)
      as (O' & C'); [constructor|].
    constructor; cbn [gs_nodes gs_sigs]; try assumption.
    + unfold distinct_keys. rewrite keys_snoc. cbn [n_outs]. apply nodup_app_iff.
      split; [assumption|]. split; [repeat constructor; intros []|].
      intros x I [<-|[]]. destruct (SRC _ I) as [(_ & U)|(s & j & Is & Ij & Ek)].
      * apply nodup_app_iff in ND. destruct ND as (_ & _ & D). apply (D _ U). left. reflexivity.
      * subst. rewrite Forall_forall in SG. revert P1. apply entry_key_plain. apply SG. assumption.
    + intros x. rewrite keys_snoc. cbn [n_outs]. rewrite in_app_iff. intros [I|[<-|[]]].
      * destruct (SRC _ I) as [(P & U)|R]; [left; split; [assumption|apply in_or_app; left; assumption]|right; assumption].
      * left. split; [assumption|apply in_or_app; right; left; reflexivity].
  - destruct (gen_uniq_signature fuel bh (gs_sigs st) seed) as [[sg sigs]| | |] eqn:EG; try discriminate.
    injection E1 as <-. apply (IH _ used) with (2 := E); try assumption.
    apply (extend_op bh st used fuel seed sg sigs 1 op []); try assumption; [unfold two64; lia|constructor].
  - destruct (forallb (entryb (gs_nodes st)) args) eqn:EF; [|discriminate].
    destruct (gen_uniq_signature fuel bh (gs_sigs st) seed) as [[sg sigs]| | |] eqn:EG; try discriminate.
    injection E1 as <-. apply (IH _ used) with (2 := E); try assumption.
    apply (extend_op bh st used fuel seed sg sigs k op args); try assumption.
    apply Forall_forall. intros e I. apply entryb_spec. rewrite forallb_forall in EF. apply EF. assumption.
Qed.

Lemma binv_empty : binv gempty [].
Proof.
  constructor.
  - intros n nd e E. destruct n; discriminate.
  - intros n nd e E. destruct n; discriminate.
  - constructor.
  - constructor.
  - intros k [].
Qed.

Lemma build_good fuel bh prog st : (forall s, 0 <= bh s < two64) ->
  build fuel bh gempty prog = Ok st -> small_outputs prog ->
  NoDup (var_names prog) -> Forall plain_name (var_names prog) ->
  ordered (gs_nodes st) /\ closed (gs_nodes st) /\ distinct_keys (gs_nodes st).
Proof.
  intros Hb E SO ND PN. destruct (build_inv fuel bh prog gempty st [] Hb binv_empty E SO ND PN).
  auto.
Qed.
(** Without any condition on the names the graph is still ordered and closed. *)
Lemma build_ordered fuel bh prog st st' : ordered (gs_nodes st) -> closed (gs_nodes st) ->
  build fuel bh st prog = Ok st' -> ordered (gs_nodes st') /\ closed (gs_nodes st').
Proof.
  revert st. induction prog as [|o prog IH]; intros st O C E; cbn [build] in E.
  { injection E as <-. auto. }
  destruct (build_step fuel bh st o) as [st1| | |] eqn:E1; try discriminate. cbn [bind] in E.
  assert (H : exists nd, gs_nodes st1 = gs_nodes st ++ [nd] /\ Forall (entry (gs_nodes st)) (n_ins nd)).
  { destruct o as [name|op seed|op args k seed]; cbn [build_step] in E1.
    - injection E1 as <-. eexists. split; [reflexivity|constructor].
    - destruct (gen_uniq_signature fuel bh (gs_sigs st) seed) as [[sg sigs]| | |] eqn:EG; try discriminate.
      injection E1 as <-. eexists. split; [reflexivity|constructor].
    - destruct (forallb (entryb (gs_nodes st)) args) eqn:EF; [|discriminate].
      destruct (gen_uniq_signature fuel bh (gs_sigs st) seed) as [[sg sigs]| | |] eqn:EG; try discriminate.
      injection E1 as <-. eexists. split; [reflexivity|].
      apply Forall_forall. intros e I. apply entryb_spec. rewrite forallb_forall in EF. apply EF. assumption. }
  destruct H as (nd & H1 & H2). destruct (extend_shape _ nd O C H2) as (O' & C'). rewrite <- H1 in O', C'.
  apply (IH st1 O' C' E).
Qed.

(** ** Topological order *)
Definition dinv (g : list gnode) (st : dstate) : Prop :=
  NoDup (d_nodes st) /\ (forall x, In x (d_visited st) <-> In x (d_nodes st)) /\
  (forall a n b m, d_nodes st = a ++ n :: b -> feeds g m n -> In m a).

Definition dpost (g : list gnode) (outs : list nat) (st st' : dstate) : Prop :=
  dinv g st' /\ (exists ext, d_nodes st' = d_nodes st ++ ext /\ forall x, In x ext -> needed g outs x) /\
  (forall n, In n outs -> In n (d_nodes st')).

Definition dvisit (g : list gnode) (f : nat) (n : nat) : Prop :=
  forall st, dinv g st -> exists st', dfs_visit f g st n = Ok st' /\ dpost g [n] st st'.

Lemma needed_mono g outs outs' x : (forall n, In n outs -> needed g outs' n) -> needed g outs x -> needed g outs' x.
Proof.
  intros H N. induction N as [n I|m n N IH F]; [auto|]. eapply nd_in; eassumption.
Qed.

Lemma dfold g f l : (forall n, In n l -> dvisit g f n) -> forall st, dinv g st ->
  exists st', fold_left (fun (acc : res dstate) n => let! st := acc in dfs_visit f g st n) l (Ok st) = Ok st' /\
    dpost g l st st'.
Proof.
  induction l as [|n l IH]; intros H st I; cbn [fold_left].
  - exists st. split; [reflexivity|]. split; [assumption|]. split; [|intros n []].
    exists []. rewrite app_nil_r. split; [reflexivity|intros x []].
  - destruct (H n (or_introl eq_refl) st I) as (st1 & E & I1 & (e1 & X1 & R1) & N1). cbn [bind]. rewrite E.
    destruct (IH (fun x Hx => H x (or_intror Hx)) st1 I1) as (st2 & -> & I2 & (e2 & X2 & R2) & N2).
    exists st2. split; [reflexivity|]. split; [assumption|]. split.
    + exists (e1 ++ e2). rewrite X2, X1, app_assoc. split; [reflexivity|].
      intros x Hx. apply in_app_or in Hx. destruct Hx as [Hx|Hx].
      * eapply needed_mono; [|apply R1; assumption]. intros y [<-|[]]. apply nd_out. left. reflexivity.
      * eapply needed_mono; [|apply R2; assumption]. intros y Hy. apply nd_out. right. assumption.
    + intros x [<-|Hx]; [|apply N2; assumption]. rewrite X2. apply in_or_app. left. apply N1. left. reflexivity.
Qed.

Lemma fold_fst {A B C} (h : C -> A -> C) (l : list (A * B)) c :
  fold_left (fun acc e => h acc (fst e)) l c = fold_left h (map fst l) c.
Proof. revert c. induction l; intros c; cbn; auto. Qed.

Lemma visit_ok g : closed g -> forall n, Acc (feeds g) n -> (n < length g)%nat ->
  exists f0, forall f, (f0 <= f)%nat -> dvisit g f n.
Proof.
  intros HC n HA. induction HA as [n _ IH]. intros Hn.
  destruct (nth_error_ex g n Hn) as (nd & End).
  assert (F : exists f0, forall f, (f0 <= f)%nat -> forall m, In m (map fst (n_ins nd)) -> dvisit g f m).
  { assert (G : forall l, (forall e, In e l -> In e (n_ins nd)) ->
        exists f0, forall f, (f0 <= f)%nat -> forall m, In m (map fst l) -> dvisit g f m).
    { induction l as [|[m i] l IHl]; intros Hl; [exists 0%nat; intros f _ m []|].
      destruct IHl as (f1 & H1); [intros e He; apply Hl; right; assumption|].
      assert (I : In (m, i) (n_ins nd)) by (apply Hl; left; reflexivity).
      destruct (IH m) as (f2 & H2).
      - exists nd, i. auto.
      - destruct (HC n nd (m, i) End I) as (md & E & _). apply nth_error_lt in E. assumption.
      - exists (max f1 f2). intros f Hf x [<-|Hx]; [apply H2; cbn; lia|apply H1; [lia|assumption]]. }
    apply G. auto. }
  destruct F as (f0 & F). exists (S f0). intros f Hf st HI. destruct f as [|f]; [lia|].
  cbn [dfs_visit]. rewrite (rd_nth _ _ _ End). cbn [bind].
  set (st0 := {| d_nodes := d_nodes st; d_visited := d_visited st; d_calls := S (d_calls st) |}).
  assert (I0 : dinv g st0) by exact HI.
  rewrite (fold_fst (fun (acc : res dstate) m => let! st := acc in dfs_visit f g st m)).
  destruct (dfold g f (map fst (n_ins nd)) (F f ltac:(lia)) st0 I0) as (st1 & -> & I1 & (e1 & X1 & R1) & N1).
  cbn [bind]. cbn [st0 d_nodes] in X1.
  assert (R1' : forall x, In x e1 -> needed g [n] x).
  { intros x Hx. eapply needed_mono; [|apply R1; assumption]. intros y Hy. apply in_map_iff in Hy.
    destruct Hy as ([y' i] & <- & Hy). eapply nd_in; [apply nd_out; left; reflexivity|]. exists nd, i. auto. }
  destruct I1 as (D1 & V1 & O1).
  destruct (existsb (Nat.eqb n) (d_visited st1)) eqn:EV.
  - exists st1. split; [reflexivity|]. split; [repeat split; auto; apply V1|]. split; [exists e1; auto|].
    intros x [<-|[]]. apply existsb_exists in EV. destruct EV as (y & Iy & Ey). apply Nat.eqb_eq in Ey. subst y.
    apply V1. assumption.
  - assert (NV : ~ In n (d_nodes st1)).
    { rewrite <- V1. intros I. rewrite <- Bool.not_true_iff_false in EV. apply EV. apply existsb_exists.
      exists n. rewrite Nat.eqb_refl. auto. }
    eexists. split; [reflexivity|]. unfold dpost, dinv. cbn [d_nodes d_visited]. split; [|split].
    + split; [|split].
      * apply nodup_app_iff. split; [assumption|]. split; [repeat constructor; intros []|].
        intros x Hx [<-|[]]. auto.
      * intros x. cbn [In]. rewrite in_app_iff. cbn [In]. rewrite V1. tauto.
      * intros a x b m E FM. apply snoc_split in E. destruct E as [(-> & -> & ->)|(b' & -> & E)].
        -- destruct FM as (nd' & i & E' & I). rewrite End in E'. injection E' as <-. apply N1.
           change m with (fst (m, i)). apply in_map. assumption.
        -- eapply O1; eassumption.
    + exists (e1 ++ [n]). rewrite X1, app_assoc. split; [reflexivity|].
      intros x Hx. apply in_app_or in Hx. destruct Hx as [Hx|[<-|[]]]; [auto|]. apply nd_out. left. reflexivity.
    + intros x [<-|[]]. apply in_or_app. right. left. reflexivity.
Qed.

Lemma topo_ok g outs : acyclic g -> closed g -> (forall n, In n outs -> (n < length g)%nat) ->
  exists f0, forall f, (f0 <= f)%nat -> exists d, topo_sort f g outs = Ok d /\
    dinv g d /\ topological g outs (d_nodes d).
Proof.
  intros HA HC HO.
  assert (F : exists f0, forall f, (f0 <= f)%nat -> forall m, In m outs -> dvisit g f m).
  { induction outs as [|m l IHl]; [exists 0%nat; intros f _ m []|].
    destruct IHl as (f1 & H1); [intros e He; apply HO; right; assumption|].
    destruct (visit_ok g HC m (HA m) (HO m (or_introl eq_refl))) as (f2 & H2).
    exists (max f1 f2). intros f Hf x [<-|Hx]; [apply H2; lia|apply H1; [lia|assumption]]. }
  destruct F as (f0 & F). exists f0. intros f Hf. unfold topo_sort.
  destruct (dfold g f outs (F f Hf) {| d_nodes := []; d_visited := []; d_calls := 0 |}) as (d & -> & I & (ext & X & R) & N).
  { split; [constructor|]. split; [reflexivity|]. intros a n b m E. destruct a; discriminate. }
  exists d. split; [reflexivity|]. split; [assumption|]. destruct I as (D & V & O).
  cbn [d_nodes app] in X.
  assert (BF : forall m n, In n (d_nodes d) -> feeds g m n -> before (d_nodes d) m n).
  { intros m n Hn FM. apply in_split in Hn. destruct Hn as (a & b & E). pose proof (O a n b m E FM) as Hm.
    apply in_split in Hm. destruct Hm as (a1 & a2 & ->). exists a1, a2, b. rewrite E, <- app_assoc. reflexivity. }
  split; [assumption|]. split; [|assumption].
  intros n. split; [rewrite X; apply R|]. intros ND. induction ND as [n I|m n _ IH FM]; [auto|].
  destruct (BF m n IH FM) as (a & b & c & ->). apply in_or_app. right. left. reflexivity.
Qed.

(** ** The cost of the visit *)
Fixpoint diamond (n : nat) : list gnode :=
  match n with
  | O => [{| n_var := true; n_op := 0; n_ins := []; n_outs := [[120]] |}]
  | S n' => diamond n' ++ [{| n_var := false; n_op := 1; n_ins := [(n', 0%nat); (n', 0%nat)];
                              n_outs := [entry_key (Z.of_nat n') 0] |}]
  end.
Lemma diamond_length n : length (diamond n) = S n.
Proof. induction n; cbn [diamond]; [reflexivity|]. rewrite app_length, IHn. cbn. lia. Qed.
Lemma diamond_nth n k : (k < n)%nat -> nth_error (diamond n) (S k) =
  Some {| n_var := false; n_op := 1; n_ins := [(k, 0%nat); (k, 0%nat)]; n_outs := [entry_key (Z.of_nat k) 0] |}.
Proof.
  induction n as [|n IH]; intros H; [lia|]. cbn [diamond]. destruct (Nat.eq_dec k n) as [->|N].
  - rewrite nth_error_app2 by (rewrite diamond_length; lia). rewrite diamond_length, Nat.sub_diag. reflexivity.
  - rewrite nth_error_app1 by (rewrite diamond_length; lia). apply IH. lia.
Qed.
Lemma diamond_nth0 n : nth_error (diamond n) 0 =
  Some {| n_var := true; n_op := 0; n_ins := []; n_outs := [[120]] |}.
Proof.
  induction n as [|n IH]; [reflexivity|]. cbn [diamond].
  rewrite nth_error_app1 by (rewrite diamond_length; lia). apply IH.
Qed.
Lemma diamond_calls n k : (k <= n)%nat -> forall f st, (k < f)%nat ->
  exists st', dfs_visit f (diamond n) st k = Ok st' /\ (S (d_calls st') = d_calls st + 2 ^ S k)%nat.
Proof.
  intros Hk. induction k as [|k IH]; intros f st Hf; (destruct f as [|f]; [lia|]); cbn [dfs_visit].
  - rewrite (rd_nth _ _ _ (diamond_nth0 n)). cbn [bind n_ins fold_left d_visited].
    destruct (existsb (Nat.eqb 0) (d_visited st)); eexists; (split; [reflexivity|cbn; lia]).
  - rewrite (rd_nth _ _ _ (diamond_nth n k ltac:(lia))). cbn [bind n_ins fold_left fst].
    destruct (IH ltac:(lia) f {| d_nodes := d_nodes st; d_visited := d_visited st; d_calls := S (d_calls st) |}
                ltac:(lia)) as (st1 & -> & E1). cbn [bind].
    destruct (IH ltac:(lia) f st1 ltac:(lia)) as (st2 & -> & E2). cbn [bind]. cbn [d_calls] in E1.
    assert (P : (2 ^ S (S k) = 2 ^ S k + 2 ^ S k)%nat) by (cbn; lia).
    destruct (existsb (Nat.eqb (S k)) (d_visited st2)); eexists; (split; [reflexivity|cbn [d_calls]; lia]).
Qed.

(** ** Groups *)
Lemma memn_in n l : memn n l = true <-> In n l.
Proof.
  unfold memn. rewrite existsb_exists. split.
  - intros (y & I & E). apply Nat.eqb_eq in E. subst. assumption.
  - intros I. exists n. rewrite Nat.eqb_refl. auto.
Qed.
Lemma memn_nin n l : memn n l = false <-> ~ In n l.
Proof. rewrite <- memn_in. destruct (memn n l); split; congruence. Qed.

Lemma filter_len {A} (p : A -> bool) l : (length (filter p l) <= length l)%nat.
Proof. induction l as [|x l IH]; cbn; [lia|]. destruct (p x); cbn; lia. Qed.
Lemma filter_shrink {A} (p q : A -> bool) l : (forall x, q x = true -> p x = true) ->
  (exists x, In x l /\ p x = true /\ q x = false) -> (length (filter q l) < length (filter p l))%nat.
Proof.
  intros H. assert (LE : forall l, (length (filter q l) <= length (filter p l))%nat).
  { induction l0 as [|y l0 IH]; cbn; [lia|]. specialize (H y). destruct (q y), (p y); cbn; lia. }
  induction l as [|y l IH]; intros (x & I & Px & Qx); [destruct I|].
  cbn. destruct I as [->|I].
  - rewrite Px, Qx. cbn. specialize (LE l). lia.
  - specialize (H y). specialize (IH ltac:(eauto)). destruct (q y), (p y); cbn; lia.
Qed.

Section Groups.
Variable ns : list snode.
Definition todo_of (finish : list nat) : list (nat * snode) :=
  filter (fun '(i, _) => negb (memn i finish)) (combine (seq 0 (length ns)) ns).
Definition run_of (finish : list nat) : list (nat * snode) :=
  filter (fun '(_, nd) => forallb (fun e => memn (fst e) finish) (s_ins nd)) (todo_of finish).

Lemma todo_in finish i nd : In (i, nd) (todo_of finish) <-> nth_error ns i = Some nd /\ ~ In i finish.
Proof.
  unfold todo_of. rewrite filter_In, combine_seq_in, Nat.sub_0_r, Bool.negb_true_iff, memn_nin.
  intuition lia.
Qed.
Lemma run_in finish i nd : In (i, nd) (run_of finish) <->
  nth_error ns i = Some nd /\ ~ In i finish /\ forall e, In e (s_ins nd) -> In (fst e) finish.
Proof.
  unfold run_of. rewrite filter_In, todo_in, forallb_forall.
  assert (forall P Q R S : Prop, (R <-> S) -> ((P /\ Q) /\ R <-> P /\ Q /\ S)) as X by (intros; tauto).
  apply X. split; intros H e I; specialize (H e I); apply memn_in; assumption.
Qed.
Lemma nodup_fst_combine (l : list snode) s : NoDup (map fst (combine (seq s (length l)) l)).
Proof.
  revert s. induction l as [|x l IH]; intros s; cbn; [constructor|]. constructor; [|apply IH].
  intros I. apply in_map_iff in I. destruct I as ((i & a) & E & I). cbn in E. subst i.
  apply combine_seq_in in I. lia.
Qed.
Lemma nodup_filter_map {A B} (f : A -> B) (p : A -> bool) l : NoDup (map f l) -> NoDup (map f (filter p l)).
Proof.
  induction l as [|x l IH]; cbn; [intros _; constructor|]. rewrite NoDup_cons_iff. intros (N & H).
  destruct (p x); cbn; [|auto]. constructor; [|auto]. intros I. apply N. apply in_map_iff in I.
  destruct I as (y & E & I). rewrite <- E. apply in_map. apply filter_In in I. tauto.
Qed.

Record ginv (finish : list nat) (groups : list (list nat)) : Prop := {
  gi_ne : Forall (fun gr => gr <> []) groups;
  gi_nd : NoDup (concat groups);
  gi_fin : forall n, In n finish <-> In n (concat groups) \/ exists nd, nth_error ns n = Some nd /\ s_var nd = true;
  gi_op : forall n, In n (concat groups) -> exists nd, nth_error ns n = Some nd /\ s_var nd = false;
  gi_dep : forall a gr b n nd m k, groups = a ++ gr :: b -> In n gr -> nth_error ns n = Some nd ->
     In (m, k) (s_ins nd) ->
     In m (concat a) \/ exists md, nth_error ns m = Some md /\ s_var md = true }.

Lemma group_loop_ok fuel : forall finish groups, ginv finish groups ->
  (length (todo_of finish) < fuel)%nat ->
  (exists gs, group_loop fuel ns finish groups = Ok gs /\ good_groups ns gs) \/
  (group_loop fuel ns finish groups = Exn RuntimeError /\ exists S, deadlock ns S).
Proof.
  induction fuel as [|f IH]; intros finish groups G HF; [lia|].
  cbn [group_loop]. fold (todo_of finish). fold (run_of finish).
  destruct (todo_of finish) as [|t0 td] eqn:ET.
  { left. exists groups. split; [reflexivity|]. destruct G as [NE ND FI OP DE].
    repeat split; try assumption; [intros H; apply OP; assumption|].
    intros (nd & E & V). assert (I : In n finish).
    { destruct (in_dec Nat.eq_dec n finish) as [I|N]; [assumption|]. exfalso.
      assert (I : In (n, nd) (todo_of finish)) by (apply todo_in; auto). rewrite ET in I. destruct I. }
    apply FI in I. destruct I as [I|(nd' & E' & V')]; [assumption|congruence]. }
  destruct (run_of finish) as [|r0 rs] eqn:ER.
  { right. split; [reflexivity|]. exists (fun n => exists nd, In (n, nd) (todo_of finish)). split.
    - exists (fst t0), (snd t0). rewrite ET. destruct t0. left. reflexivity.
    - intros n (nd & I). pose proof I as I0. apply todo_in in I. destruct I as (E & NF).
      assert (NV : s_var nd = false).
      { destruct (s_var nd) eqn:V; [|reflexivity]. exfalso. apply NF. apply (gi_fin _ _ G). right. eauto. }
      assert (B : exists m k, In (m, k) (s_ins nd) /\ ~ In m finish).
      { assert (NR : ~ In (n, nd) (run_of finish)) by (rewrite ER; intros []).
        rewrite run_in in NR.
        destruct (forallb (fun e => memn (fst e) finish) (s_ins nd)) eqn:EF.
        - exfalso. apply NR. split; [assumption|]. split; [assumption|]. intros e I. apply memn_in.
          rewrite forallb_forall in EF. apply (EF e I).
        - assert (X : exists e, In e (s_ins nd) /\ memn (fst e) finish = false).
          { clear -EF. induction (s_ins nd) as [|e l IH]; cbn in EF; [discriminate|].
            destruct (memn (fst e) finish) eqn:E; [|exists e; split; [left; reflexivity|assumption]].
            destruct (IH EF) as (e' & I & E'). exists e'. split; [right; assumption|assumption]. }
          destruct X as ((m & k) & I & EM). apply memn_nin in EM. exists m, k. auto. }
      destruct B as (m & k & I & NM). exists nd, m, k. repeat split; try assumption.
      destruct (nth_error ns m) as [md|] eqn:EM; [left|right; reflexivity].
      exists md. apply todo_in. auto. }
  rewrite <- ER.
  assert (RNE : run_of finish <> []) by (rewrite ER; discriminate).
  rewrite <- ET in HF. clear t0 td ET.
  assert (RI : forall n, In n (map fst (run_of finish)) <-> exists nd, nth_error ns n = Some nd /\ ~ In n finish /\
             forall e, In e (s_ins nd) -> In (fst e) finish).
  { intros n. rewrite in_map_iff. split.
    - intros ((i & nd) & E & I). cbn in E. subst i. apply run_in in I. eauto.
    - intros (nd & H). exists (n, nd). split; [reflexivity|]. apply run_in. assumption. }
  assert (RV : forall n nd, In n (map fst (run_of finish)) -> nth_error ns n = Some nd -> s_var nd = false).
  { intros n nd I E. apply RI in I. destruct I as (nd' & E' & NF & _).
    destruct (s_var nd) eqn:V; [|reflexivity]. exfalso. apply NF. apply (gi_fin _ _ G). right. eauto. }
  apply IH.
  - constructor.
    + apply Forall_app. split; [apply (gi_ne _ _ G)|]. constructor; [|constructor].
      intros E. apply map_eq_nil in E. auto.
    + rewrite concat_app. cbn [concat]. rewrite app_nil_r. apply nodup_app_iff.
      split; [apply (gi_nd _ _ G)|]. split.
      * unfold run_of, todo_of. apply nodup_filter_map, nodup_filter_map, nodup_fst_combine.
      * intros x I I'. apply RI in I'. destruct I' as (nd & _ & NF & _). apply NF. apply (gi_fin _ _ G). auto.
    + intros n. rewrite concat_app. cbn [concat]. rewrite app_nil_r, !in_app_iff, (gi_fin _ _ G). tauto.
    + intros n. rewrite concat_app. cbn [concat]. rewrite app_nil_r, in_app_iff. intros [I|I]; [apply (gi_op _ _ G n I)|].
      pose proof I as I0. apply RI in I. destruct I as (nd & E & _). exists nd. split; [assumption|]. apply (RV n nd I0 E).
    + intros a gr b n nd m k E I En Im. apply snoc_split in E. destruct E as [(-> & -> & ->)|(b' & -> & E)].
      * apply RI in I. destruct I as (nd' & E' & NF & D). rewrite En in E'. injection E' as <-.
        specialize (D (m, k) Im). cbn in D. apply (gi_fin _ _ G) in D. assumption.
      * eapply (gi_dep _ _ G); eassumption.
  - assert (L : (length (todo_of (map fst (run_of finish) ++ finish)) < length (todo_of finish))%nat).
    { unfold todo_of. apply filter_shrink.
      - intros (i & x). rewrite !Bool.negb_true_iff, !memn_nin, in_app_iff. tauto.
      - destruct (run_of finish) as [|(i & nd) r] eqn:E; [congruence|]. exists (i, nd).
        assert (I : In (i, nd) (run_of finish)) by (rewrite E; left; reflexivity).
        apply run_in in I. destruct I as (En & NF & _). split; [apply combine_seq_in; rewrite Nat.sub_0_r; split; [lia|assumption]|].
        rewrite Bool.negb_true_iff, Bool.negb_false_iff, memn_nin, memn_in. split; [assumption|].
        apply in_or_app. left. left. reflexivity. }
    lia.
Qed.

Lemma groups_ok fuel : ns <> [] -> (length ns < fuel)%nat ->
  (exists gs, build_run_nodes fuel ns = Ok gs /\ good_groups ns gs) \/
  (build_run_nodes fuel ns = Exn RuntimeError /\ exists S, deadlock ns S).
Proof.
  intros NE HF. unfold build_run_nodes.
  destruct ns as [|x0 l0] eqn:E; [congruence|]. rewrite <- E in *. clear E x0 l0.
  apply group_loop_ok.
  - constructor; cbn [concat]; [constructor|constructor| |intros n []|].
    + intros n. split.
      * intros I. right. apply in_map_iff in I. destruct I as ((i & nd) & E & I). cbn in E. subst i.
        apply filter_In in I. destruct I as (I & V). apply combine_seq_in in I. rewrite Nat.sub_0_r in I.
        exists nd. split; [apply I|assumption].
      * intros [[]|(nd & E & V)]. apply in_map_iff. exists (n, nd). split; [reflexivity|].
        apply filter_In. split; [|assumption]. apply combine_seq_in. rewrite Nat.sub_0_r. split; [lia|assumption].
    + intros a gr b n nd m k E. destruct a; discriminate.
  - unfold todo_of. eapply Nat.le_lt_trans; [|exact HF].
    etransitivity; [|apply Nat.eq_le_incl; apply (eq_trans (combine_length (seq 0 (length ns)) ns)); rewrite seq_length; apply Nat.min_id].
    apply filter_len.
Qed.

Lemma ordered_no_deadlock : (forall i nd e, nth_error ns i = Some nd -> In e (s_ins nd) -> (fst e < i)%nat) ->
  forall S, ~ deadlock ns S.
Proof.
  intros H S ((n & Hn) & D). revert Hn. induction n as [n IH] using lt_wf_ind. intros Hn.
  destruct (D n Hn) as (nd & m & k & E & _ & I & [Sm|Nm]).
  - apply (IH m); [|assumption]. apply (H n nd (m, k) E I).
  - pose proof (H n nd (m, k) E I) as L. cbn in L. apply nth_error_None in Nm. apply nth_error_lt in E. lia.
Qed.
End Groups.

(** ** From the symbolic graph to the session *)
Lemma key_fold_in {B} (ks : B -> list key) (l : list B) : forall s d,
  let r := fold_left (fun d '(i, nd) => fold_left (fun d k => demplace d k i) (ks nd) d)
             (combine (seq s (length l)) l) d in
  (forall k a, dfind d k = Some a -> dfind r k = Some a) /\
  (forall i nd k, NoDup (flat_map ks l) -> nth_error l i = Some nd -> In k (ks nd) -> dfind d k = None ->
     dfind r k = Some (s + i)%nat) /\
  (forall k, dfind d k = None -> ~ In k (flat_map ks l) -> dfind r k = None).
Proof.
  assert (inner : forall ks (i : nat) d,
    let r := fold_left (fun d k => demplace d k i) ks d in
    (forall k a, dfind d k = Some a -> dfind r k = Some a) /\
    (forall k, In k ks -> dfind d k = None -> dfind r k = Some i) /\
    (forall k, ~ In k ks -> dfind r k = dfind d k)).
  { induction ks0 as [|k0 ks0 IH]; intros i d; cbn [fold_left].
    - cbv zeta. split; [auto|]. split; [intros k []|auto].
    - destruct (IH i (demplace d k0 i)) as (I1 & I2 & I3). cbv zeta in *. split; [|split].
      + intros k a E. apply I1. rewrite dfind_demplace, E. reflexivity.
      + intros k [<-|I] E.
        * apply I1. rewrite dfind_demplace, E, key_eqb_refl. reflexivity.
        * destruct (key_eqb_spec k k0) as [->|N].
          { apply I1. rewrite dfind_demplace, E, key_eqb_refl. reflexivity. }
          apply I2; [assumption|]. rewrite dfind_demplace, E. destruct (key_eqb_spec k k0); [congruence|reflexivity].
      + intros k N. rewrite I3 by (intros I; apply N; right; assumption).
        rewrite dfind_demplace. destruct (dfind d k); [reflexivity|].
        destruct (key_eqb_spec k k0) as [->|]; [exfalso; apply N; left; reflexivity|reflexivity]. }
  induction l as [|x l IH]; intros s d; cbn [length seq combine fold_left flat_map].
  { cbv zeta. split; [auto|]. split; [intros i nd k _ E; destruct i; discriminate|auto]. }
  destruct (inner (ks x) s d) as (J1 & J2 & J3). set (d1 := fold_left _ (ks x) d) in *.
  destruct (IH (S s) d1) as (I1 & I2 & I3). cbv zeta in *.
  split; [auto|]. split.
  - intros i nd k ND E I F. apply nodup_app_iff in ND. destruct ND as (N1 & N2 & N3).
    destruct i as [|i]; cbn in E.
    + injection E as <-. rewrite Nat.add_0_r. apply I1. apply J2; assumption.
    + rewrite (I2 i nd k N2 E I); [f_equal; lia|]. rewrite J3; [assumption|].
      intros I'. apply (N3 k I'). apply in_flat_map. exists nd. split; [apply nth_error_In in E; assumption|assumption].
  - intros k F N. rewrite in_app_iff in N. apply I3; [rewrite J3; tauto|tauto].
Qed.

Lemma inner_filter {A} (p : key -> bool) ks (i : A) d :
  fold_left (fun d k => if p k then demplace d k i else d) ks d =
  fold_left (fun d k => demplace d k i) (filter p ks) d.
Proof. revert d. induction ks as [|k ks IH]; intros d; cbn; [reflexivity|]. rewrite IH. destruct (p k); reflexivity. Qed.

(** The session entry [se] is the symbolic entry [e]. *)
Definition ent (g : list gnode) (order : list nat) (e : nat * nat) (se : nat * key) : Prop :=
  key_of g e = Ok (snd se) /\ nth_error order (fst se) = Some (fst e).

Definition same_node (g : list gnode) (order : list nat) (n : nat) (sd : snode) : Prop :=
  exists nd, nth_error g n = Some nd /\ s_var sd = n_var nd /\ s_op sd = n_op nd /\
    s_outs sd = n_outs nd /\ Forall2 (ent g order) (n_ins nd) (s_ins sd).

Lemma key_of_ok g e : entry g e -> exists nd k, nth_error g (fst e) = Some nd /\
  nth_error (n_outs nd) (snd e) = Some k /\ key_of g e = Ok k.
Proof.
  intros (nd & E & L). destruct (nth_error_ex _ _ L) as (k & Ek). exists nd, k.
  unfold key_of. rewrite (rd_nth _ _ _ E). cbn [bind]. rewrite (rd_nth _ _ _ Ek). auto.
Qed.
Lemma key_of_inv g e k : key_of g e = Ok k -> exists nd, nth_error g (fst e) = Some nd /\ nth_error (n_outs nd) (snd e) = Some k.
Proof.
  unfold key_of, rd. destruct (nth_error g (fst e)) as [nd|] eqn:E; [|discriminate]. cbn [bind].
  destruct (nth_error (n_outs nd) (snd e)) as [k'|] eqn:E'; [|discriminate]. intros [= <-]. eauto.
Qed.

Lemma flat_map_nodup_sub {A B} (f : A -> list B) (l : list A) (idx : list nat) (l' : list A) :
  NoDup (flat_map f l) -> NoDup idx -> Forall2 (fun i a => nth_error l i = Some a) idx l' ->
  NoDup (flat_map f l').
Proof.
  intros ND. assert (DJ : forall i j a b x, nth_error l i = Some a -> nth_error l j = Some b -> In x (f a) -> In x (f b) -> i = j).
  { clear -ND. induction l as [|y l IH]; intros [|i] [|j] a b x Ei Ej Ia Ib; cbn in *; try discriminate; [reflexivity| | |].
    - exfalso. injection Ei as ->. apply nodup_app_iff in ND. destruct ND as (_ & _ & D). apply (D x Ia).
      apply in_flat_map. exists b. split; [apply nth_error_In in Ej; assumption|assumption].
    - exfalso. injection Ej as ->. apply nodup_app_iff in ND. destruct ND as (_ & _ & D). apply (D x Ib).
      apply in_flat_map. exists a. split; [apply nth_error_In in Ei; assumption|assumption].
    - f_equal. apply nodup_app_iff in ND. destruct ND as (_ & ND & _). eapply IH; eassumption. }
  assert (SN : forall i a, nth_error l i = Some a -> NoDup (f a)).
  { clear -ND. induction l as [|y l IH]; intros [|i] a E; cbn in *; try discriminate;
      apply nodup_app_iff in ND; destruct ND as (N1 & N2 & _); [congruence|eapply IH; eassumption]. }
  intros NI H. induction H as [|i a idx l' E H IH]; cbn; [constructor|].
  inversion NI as [|? ? Ni NI']; subst. apply nodup_app_iff. split; [eapply SN; eassumption|]. split; [auto|].
  intros x Ix Ix'. apply in_flat_map in Ix'. destruct Ix' as (b & Ib & Ixb). apply Ni.
  clear -H Ib DJ E Ix Ixb. induction H as [|j c idx l' Ej H IH]; [destruct Ib|].
  destruct Ib as [->|Ib]; [left; symmetry; eapply DJ; eassumption|right; auto].
Qed.

Lemma to_dict_ok g outs n : closed g -> (n < length g)%nat -> exists nd dn,
  nth_error g n = Some nd /\ to_dict g outs n = Ok dn /\ dn_var dn = n_var nd /\ dn_op dn = n_op nd /\
  dn_outs dn = n_outs nd /\ Forall2 (fun e k => key_of g e = Ok k) (n_ins nd) (dn_ins dn) /\
  (forall i k, nth_error (n_outs nd) i = Some k -> In (n, i) outs -> In k (dn_exported dn)).
Proof.
  intros HC Hn. destruct (nth_error_ex g n Hn) as (nd & E). exists nd.
  destruct (map_res_forall2 (key_of g) (fun e k => key_of g e = Ok k) (n_ins nd)) as (ks & Ek & F).
  { intros e I. destruct (key_of_ok g e (HC n nd e E I)) as (_ & k & _ & _ & H). exists k. auto. }
  unfold to_dict. rewrite (rd_nth _ _ _ E). cbn [bind]. rewrite Ek. cbn [bind].
  eexists. split; [assumption|]. split; [reflexivity|]. cbn [dn_var dn_op dn_outs dn_ins dn_exported].
  split; [reflexivity|]. split; [reflexivity|]. split; [reflexivity|]. split; [assumption|].
  intros i k Ei I. apply in_flat_map. exists (i, k). split.
  - apply combine_seq_in. rewrite Nat.sub_0_r. split; [lia|assumption].
  - assert (X : existsb (entry_eqb (n, i)) outs = true).
    { apply existsb_exists. exists (n, i). split; [assumption|]. unfold entry_eqb. cbn. rewrite !Nat.eqb_refl. reflexivity. }
    rewrite X. left. reflexivity.
Qed.

Lemma forall2_in_l {A B} (R : A -> B -> Prop) l l' : Forall2 R l l' -> forall a, In a l -> exists b, In b l' /\ R a b.
Proof.
  induction 1 as [|a b l l' Hab H IH]; intros x I; [destruct I|]. destruct I as [<-|I]; [exists b; split; [left; reflexivity|assumption]|].
  destruct (IH x I) as (y & Iy & Ry). exists y. split; [right; assumption|assumption].
Qed.
Lemma forall2_trans {A B C} (R : A -> B -> Prop) (S : B -> C -> Prop) (T : A -> C -> Prop) l l' l'' :
  (forall a b c, In a l -> R a b -> S b c -> T a c) -> Forall2 R l l' -> Forall2 S l' l'' -> Forall2 T l l''.
Proof.
  intros H F. revert l''. induction F as [|a b l l' Hab F IH]; intros l'' G; inversion G; subst; constructor.
  - eapply H; [left; reflexivity|eassumption|assumption].
  - apply IH; [|assumption]. intros; eapply H; [right; eassumption|eassumption|assumption].
Qed.

Lemma trace_nodes g order outs : closed g -> distinct_keys g -> NoDup order ->
  (forall n, In n order -> (n < length g)%nat) ->
  (forall m n, In n order -> feeds g m n -> In m order) ->
  outs <> [] -> (forall e, In e outs -> entry g e /\ In (fst e) order) ->
  exists l ns, map_res (to_dict g outs) order = Ok l /\ from_generic l = Ok ns /\
    Forall2 (same_node g order) order ns /\
    exists souts, map_res (fun e => let! k := key_of g e in
       match dfind (name2entry ns) k with Some i => Ok (i, k) | None => Exn CheckFailed end) outs = Ok souts /\
      Forall2 (ent g order) outs souts.
Proof.
  intros HC HK HD HL HF HNE HO.
  set (R := fun n dn => exists nd, nth_error g n = Some nd /\ dn_var dn = n_var nd /\ dn_op dn = n_op nd /\
      dn_outs dn = n_outs nd /\ Forall2 (fun e k => key_of g e = Ok k) (n_ins nd) (dn_ins dn) /\
      (forall i k, nth_error (n_outs nd) i = Some k -> In (n, i) outs -> In k (dn_exported dn))).
  destruct (map_res_forall2 (to_dict g outs) R order) as (l & El & Fl).
  { intros n I. destruct (to_dict_ok g outs n HC (HL n I)) as (nd & dn & E1 & E2 & H). exists dn. split; [assumption|]. exists nd. auto. }
  exists l.
  assert (NDK : NoDup (flat_map dn_outs l)).
  { assert (X : exists gs, Forall2 (fun n nd => nth_error g n = Some nd) order gs /\ flat_map dn_outs l = flat_map n_outs gs).
    { clear -Fl. induction Fl as [|n dn order l (nd & E & _ & _ & Eo & _) Fl IH]; [exists []; split; [constructor|reflexivity]|].
      destruct IH as (gs & F & Eg). exists (nd :: gs). split; [constructor; assumption|]. cbn. congruence. }
    destruct X as (gs & FX & ->). eapply flat_map_nodup_sub; eassumption. }
  destruct (key_fold_in dn_outs l 0 []) as (_ & KF & _). cbv zeta in KF.
  change (fold_left _ (combine (seq 0 (length l)) l) []) with (key2node l) in KF.
  assert (LK : forall e k, key_of g e = Ok k -> In (fst e) order ->
      exists i, dfind (key2node l) k = Some i /\ nth_error order i = Some (fst e)).
  { intros e k Ek I. apply In_nth_error in I. destruct I as (i & Ei).
    destruct (forall2_nth _ _ _ Fl i _ Ei) as (dn & Edn & nd & End & _ & _ & Eo & _).
    destruct (key_of_inv g e k Ek) as (nd' & End' & Enk). rewrite End in End'. injection End' as <-.
    exists i. split; [|assumption]. rewrite (KF i dn k NDK Edn); [reflexivity| |reflexivity].
    rewrite Eo. apply nth_error_In in Enk. assumption. }
  set (conv := fun nd => let! ins := map_res (fun k => let! n := dat (key2node l) k in Ok (n, k)) (dn_ins nd) in
               Ok {| s_var := dn_var nd; s_op := dn_op nd; s_ins := ins; s_outs := dn_outs nd;
                     s_exported := dn_exported nd |}).
  set (Q := fun dn sd => s_var sd = dn_var dn /\ s_op sd = dn_op dn /\ s_outs sd = dn_outs dn /\
          s_exported sd = dn_exported dn /\
          Forall2 (fun k (se : nat * key) => snd se = k /\ dfind (key2node l) k = Some (fst se)) (dn_ins dn) (s_ins sd)).
  destruct (map_res_forall2 conv Q l) as (ns & Ens & Fns).
  { intros dn I. assert (X : exists n, In n order /\ R n dn).
    { clear -Fl I. induction Fl as [|n d order l Rn Fl IH]; [destruct I|]. destruct I as [->|I]; [exists n; split; [left; reflexivity|assumption]|].
      destruct (IH I) as (n' & I' & R'). exists n'. split; [right; assumption|assumption]. }
    destruct X as (n & Inn & nd & End & Ev & Eop & Eo & Fk & _).
    destruct (map_res_forall2 (fun k => let! n := dat (key2node l) k in Ok (n, k))
       (fun k (se : nat * key) => snd se = k /\ dfind (key2node l) k = Some (fst se)) (dn_ins dn)) as (ins & Ei & Fi).
    { intros k Ik. assert (Y : exists e, In e (n_ins nd) /\ key_of g e = Ok k).
      { clear -Fk Ik. induction Fk as [|e k0 es ks E F IH]; [destruct Ik|]. destruct Ik as [->|Ik]; [exists e; split; [left; reflexivity|assumption]|].
        destruct (IH Ik) as (e' & I' & E'). exists e'. split; [right; assumption|assumption]. }
      destruct Y as (e & Ie & Ee). destruct (LK e k Ee) as (i & Ed & _).
      { apply (HF (fst e) n Inn). exists nd, (snd e). split; [assumption|]. rewrite <- surjective_pairing. assumption. }
      unfold dat. rewrite Ed. cbn [bind]. eexists. split; [reflexivity|]. cbn. auto. }
    unfold conv. rewrite Ei. cbn [bind]. eexists. split; [reflexivity|]. unfold Q. cbn. auto. }
  exists ns. split; [assumption|]. split; [|split].
  - unfold from_generic. fold conv. rewrite Ens. cbn [bind].
    assert (X : existsb (fun nd => negb (match dn_exported nd with [] => true | _ => false end)) l = true).
    { destruct outs as [|e outs']; [congruence|]. destruct (HO e (or_introl eq_refl)) as (EE & IE).
      destruct (forall2_in_l _ _ _ Fl _ IE) as (dn & Idn & nd & End & _ & _ & _ & _ & EX).
      destruct (key_of_ok g e EE) as (nd' & k & End' & Ek & _). rewrite End in End'. injection End' as <-.
      apply existsb_exists. exists dn. split; [assumption|].
      specialize (EX (snd e) k Ek). rewrite <- surjective_pairing in EX. specialize (EX (or_introl eq_refl)).
      destruct (dn_exported dn); [destruct EX|reflexivity]. }
    rewrite X. reflexivity.
  - eapply forall2_trans with (2 := Fl) (3 := Fns).
    intros n dn sd Inn (nd & End & Ev & Eop & Eo & Fk & _) (Qv & Qop & Qo & _ & Qi).
    exists nd. repeat split; try congruence.
    eapply forall2_trans with (2 := Fk) (3 := Qi). intros e k se Ie Ee (Es & Ed). split; [congruence|].
    destruct (LK e k Ee) as (i & Ed' & Eo'); [|congruence].
    apply (HF (fst e) n Inn). exists nd, (snd e). split; [assumption|]. rewrite <- surjective_pairing. assumption.
  - destruct (key_fold_in (fun sd => filter (fun k => existsb (key_eqb k) (s_exported sd)) (s_outs sd)) ns 0 []) as (_ & NF & _).
    cbv zeta in NF.
    assert (EN : name2entry ns = fold_left (fun d '(i, nd) => fold_left (fun d k => demplace d k i)
        (filter (fun k => existsb (key_eqb k) (s_exported nd)) (s_outs nd)) d) (combine (seq 0 (length ns)) ns) []).
    { unfold name2entry. generalize (@nil (key * nat)). clear. induction (combine (seq 0 (length ns)) ns) as [|[i nd] c IH]; intros d; cbn [fold_left]; [reflexivity|].
      rewrite inner_filter. apply IH. }
    rewrite <- EN in NF.
    assert (NDS : NoDup (flat_map (fun sd => filter (fun k => existsb (key_eqb k) (s_exported sd)) (s_outs sd)) ns)).
    { assert (X : flat_map s_outs ns = flat_map dn_outs l).
      { clear -Fns. induction Fns as [|dn sd l' ns' (Qv & Qop & Qo & _) F IH]; [reflexivity|]. cbn. congruence. }
      rewrite <- X in NDK. clear -NDK. induction ns as [|sd ns IH]; cbn in *; [constructor|].
      apply nodup_app_iff in NDK. destruct NDK as (N1 & N2 & N3). apply nodup_app_iff.
      split; [apply NoDup_filter; assumption|]. split; [auto|]. intros x Ix Ix'. apply filter_In in Ix.
      apply (N3 x); [tauto|]. apply in_flat_map in Ix'. destruct Ix' as (y & Iy & Ix'). apply filter_In in Ix'.
      apply in_flat_map. exists y. tauto. }
    apply map_res_forall2. intros e Ie. destruct (HO e Ie) as (EE & IE).
    destruct (key_of_ok g e EE) as (nd & k & End & Ek & Eke). rewrite Eke. cbn [bind].
    apply In_nth_error in IE. destruct IE as (i & Ei).
    destruct (forall2_nth _ _ _ Fl i _ Ei) as (dn & Edn & nd' & End' & _ & _ & Eo & _ & EX).
    rewrite End in End'. injection End' as <-.
    destruct (forall2_nth _ _ _ Fns i _ Edn) as (sd & Esd & _ & _ & Qo & Qe & _).
    rewrite (NF i sd k NDS Esd); [| |reflexivity].
    + exists (i, k). split; [reflexivity|]. split; [assumption|assumption].
    + apply filter_In. rewrite Qo, Eo, Qe. split; [apply nth_error_In in Ek; assumption|].
      apply existsb_exists. exists k. split; [|apply key_eqb_refl]. apply (EX (snd e) k Ek).
      rewrite <- surjective_pairing. assumption.
Qed.

(** Groups exist only when nothing is deadlocked. *)
Lemma good_groups_no_deadlock ns gs S : good_groups ns gs -> ~ deadlock ns S.
Proof.
  intros (_ & _ & OPS & DEP) ((n & Hn) & D).
  assert (X : forall a b, gs = a ++ b -> forall x, In x (concat a) -> ~ S x).
  { induction a as [|gr a IH] using rev_ind; intros b E x I Sx; [destruct I|].
    rewrite <- app_assoc in E. cbn in E. rewrite concat_app, in_app_iff in I. cbn in I. rewrite app_nil_r in I.
    destruct I as [I|I]; [apply (IH _ E x I Sx)|].
    destruct (D x Sx) as (nd & m & k & En & Va & Im & HM).
    destruct (DEP a gr b x nd m k E I En Im) as [Ia|(md & Em & Vm)].
    - destruct HM as [Sm|Nm]; [apply (IH _ E m Ia Sm)|].
      assert (IC : In m (concat gs)) by (rewrite E, concat_app; apply in_or_app; left; assumption).
      apply OPS in IC. destruct IC as (md & Em & _). congruence.
    - destruct HM as [Sm|Nm]; [|congruence]. destruct (D m Sm) as (md' & _ & _ & Em' & Vm' & _). congruence. }
  destruct (D n Hn) as (nd & m & k & En & Va & _).
  apply (X gs [] ltac:(rewrite app_nil_r; reflexivity) n); [|assumption]. apply OPS. eauto.
Qed.

(** The visit returns only on nodes above which there is no cycle. *)
Lemma fold_res_ok {A} (h : dstate -> A -> res dstate) l st st' :
  fold_left (fun (acc : res dstate) x => let! st := acc in h st x) l (Ok st) = Ok st' ->
  forall x, In x l -> exists s1 s2, h s1 x = Ok s2.
Proof.
  revert st. induction l as [|y l IH]; intros st E x I; [destruct I|]. cbn [fold_left bind] in E.
  destruct (h st y) as [s1| | |] eqn:Ey.
  - destruct I as [->|I]; [eauto|]. eapply IH; eassumption.
  - exfalso. clear -E. induction l; cbn in E; [discriminate|auto].
  - exfalso. clear -E. induction l; cbn in E; [discriminate|auto].
  - exfalso. clear -E. induction l; cbn in E; [discriminate|auto].
Qed.
Lemma visit_acc f g : forall n st st', dfs_visit f g st n = Ok st' -> Acc (feeds g) n.
Proof.
  induction f as [|f IH]; intros n st st' E; [discriminate|]. cbn [dfs_visit] in E.
  unfold rd in E. destruct (nth_error g n) as [nd|] eqn:En; [|discriminate]. cbn [bind] in E.
  set (st0 := {| d_nodes := _; d_visited := _; d_calls := _ |}) in E.
  destruct (fold_left _ (n_ins nd) (Ok st0)) as [st1| | |] eqn:EF; try discriminate.
  constructor. intros m (nd' & i & En' & I). rewrite En in En'. injection En' as <-.
  destruct (fold_res_ok (fun st e => dfs_visit f g st (fst e)) _ _ _ EF (m, i) I) as (s1 & s2 & E2). eauto.
Qed.
