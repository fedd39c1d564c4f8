(** Running a traced session, one node after the other and in parallel groups. *)
From Verif Require Import Base ListAux FmtModel FmtSpec GraphModel GraphSpec FmtProofs NameProofs GraphProofs.
Ltac Zify.zify_post_hook ::= Z.to_euclidean_division_equations.

Lemma needed_same g l l' x : (forall n, In n l <-> In n l') -> needed g l x <-> needed g l' x.
Proof.
  intros H. split; apply needed_mono; intros n I; apply nd_out; apply H; assumption.
Qed.

Definition traced (g : list gnode) (outs : list (nat * nat)) (names : list key) (s : session)
  (order : list nat) : Prop :=
  topological g (map fst outs) order /\ order <> [] /\
  Forall2 (same_node g order) order (ss_nodes s) /\ Forall2 (ent g order) outs (ss_outs s) /\
  good_groups (ss_nodes s) (ss_groups s) /\ ss_out_names s = names /\
  (forall i sd e, nth_error (ss_nodes s) i = Some sd -> In e (s_ins sd) -> (fst e < i)%nat).

Lemma trace_ok g out_nodes outs names : acyclic g -> closed g -> distinct_keys g ->
  outs <> [] -> (forall e, In e outs -> entry g e) ->
  (forall n, In n out_nodes <-> In n (map fst outs)) ->
  exists f0, forall f, (f0 <= f)%nat -> exists s order,
    trace f g out_nodes outs names = Ok s /\ traced g outs names s order.
Proof.
  intros HA HC HK NE HE HO.
  destruct (topo_ok g out_nodes HA HC) as (f0 & T).
  { intros n I. apply HO in I. apply in_map_iff in I. destruct I as (e & <- & I).
    destruct (HE e I) as (nd & E & _). apply nth_error_lt in E. assumption. }
  exists (max f0 (S (length g))). intros f Hf. destruct (T f ltac:(lia)) as (d & ET & (_ & _ & DO) & D1 & D2 & D3).
  set (order := d_nodes d) in *.
  assert (HL : forall n, In n order -> (n < length g)%nat).
  { intros n I. apply D2 in I. induction I as [n I|m n _ IH (nd & i & E & I)].
    - apply HO in I. apply in_map_iff in I. destruct I as (e & <- & I).
      destruct (HE e I) as (nd & E & _). apply nth_error_lt in E. assumption.
    - destruct (HC n nd (m, i) E I) as (md & Em & _). apply nth_error_lt in Em. assumption. }
  assert (HF : forall m n, In n order -> feeds g m n -> In m order).
  { intros m n I F. apply D2. eapply nd_in; [apply D2; eassumption|assumption]. }
  destruct (trace_nodes g order outs HC HK D1 HL HF NE) as (l & ns & El & Ens & SN & souts & Eo & SO).
  { intros e I. split; [auto|]. apply D2. apply nd_out. apply HO. apply in_map. assumption. }
  assert (LN : length ns = length order) by (symmetry; eapply forall2_length; eassumption).
  assert (LO : (length order <= length g)%nat).
  { replace (length g) with (length (seq 0 (length g))) by apply seq_length.
    apply NoDup_incl_length; [assumption|]. intros x I. apply in_seq. specialize (HL x I). lia. }
  assert (ONE : order <> []).
  { destruct outs as [|e outs']; [congruence|]. intros E.
    assert (I : In (fst e) order) by (apply D2, nd_out, HO; left; reflexivity). rewrite E in I. destruct I. }
  assert (ORD : forall i sd e, nth_error ns i = Some sd -> In e (s_ins sd) -> (fst e < i)%nat).
  { intros i sd e Ei Ie.
    assert (Li : (i < length order)%nat) by (rewrite <- LN; eapply nth_error_lt; eassumption).
    destruct (nth_error_ex order i Li) as (n & En).
    destruct (forall2_nth _ _ _ SN i n En) as (sd' & Ei' & nd & End & _ & _ & _ & FI).
    rewrite Ei in Ei'. injection Ei' as <-.
    assert (X : exists e0, In e0 (n_ins nd) /\ ent g order e0 e).
    { clear -FI Ie. induction FI as [|e0 se l l' R F IH]; [destruct Ie|]. destruct Ie as [->|I]; [exists e0; split; [left; reflexivity|assumption]|].
      destruct (IH I) as (e1 & I1 & R1). exists e1. split; [right; assumption|assumption]. }
    destruct X as (e0 & I0 & K0 & P0).
    apply nth_error_split in En. destruct En as (a & b & Eo' & La).
    assert (Ia : In (fst e0) a).
    { apply (DO a n b (fst e0) Eo'). exists nd, (snd e0). split; [assumption|]. rewrite <- surjective_pairing. assumption. }
    apply In_nth_error in Ia. destruct Ia as (j & Ej).
    assert (Lj : (j < length a)%nat) by (eapply nth_error_lt; eassumption).
    assert (Ej' : nth_error order j = Some (fst e0)) by (rewrite Eo', nth_error_app1; assumption).
    assert (fst e = j); [|lia].
    apply (proj1 (NoDup_nth_error order)); [assumption|eapply nth_error_lt; eassumption|congruence]. }
  destruct (groups_ok ns f) as [(gs & Eg & GG)|(_ & S & DL)].
  - destruct ns; [destruct order; [congruence|discriminate]|discriminate].
  - lia.
  - exists {| ss_nodes := ns; ss_groups := gs; ss_outs := souts; ss_out_names := names |}, order.
    split.
    + unfold trace. rewrite ET. cbn [bind]. fold order. rewrite El. cbn [bind]. rewrite Ens. cbn [bind].
      rewrite Eo. cbn [bind]. rewrite Eg. reflexivity.
    + split; [|split; [assumption|]].
      * split; [assumption|]. split; [|assumption]. intros n. rewrite D2. apply needed_same. assumption.
      * cbn. repeat split; try assumption; try apply GG. 
  - exfalso. revert DL. apply ordered_no_deadlock. assumption.
Qed.

(** ** Tables *)
Lemma emplace_all {V} (kvs d : list (key * V)) : NoDup (map fst kvs) -> (forall k, In k (map fst kvs) -> dfind d k = None) ->
  fold_left (fun d '(k, v) => demplace d k v) kvs d = d ++ kvs.
Proof.
  revert d. induction kvs as [|[k v] kvs IH]; intros d ND F; cbn [fold_left]; [rewrite app_nil_r; reflexivity|].
  cbn in ND. inversion ND as [|? ? Nk ND']; subst.
  assert (E : demplace d k v = d ++ [(k, v)]).
  { unfold demplace. rewrite F by (left; reflexivity). reflexivity. }
  rewrite E, IH; [rewrite <- app_assoc; reflexivity|assumption|].
  intros k' I. rewrite dfind_app, F by (right; assumption). cbn.
  destruct (key_eqb_spec k' k) as [->|]; [contradiction|reflexivity].
Qed.
Lemma combine_fst {A B} (l : list A) (l' : list B) : length l = length l' -> map fst (combine l l') = l.
Proof. revert l'. induction l; intros [|y l'] H; cbn in *; try discriminate; [reflexivity|]. f_equal. apply IHl. lia. Qed.
Lemma dfind_combine {V} (ks : list key) (vs : list V) j k v : NoDup ks -> nth_error ks j = Some k -> nth_error vs j = Some v ->
  dfind (combine ks vs) k = Some v.
Proof.
  revert vs j. induction ks as [|k0 ks IH]; intros vs j ND E1 E2; [destruct j; discriminate|].
  inversion ND as [|? ? N ND']; subst. destruct vs as [|v0 vs]; [destruct j; discriminate|]. cbn.
  destruct j as [|j]; cbn in E1, E2.
  - injection E1 as <-. injection E2 as <-. rewrite key_eqb_refl. reflexivity.
  - destruct (key_eqb_spec k k0) as [->|]; [exfalso; apply N; apply nth_error_In in E1; assumption|]. eapply IH; eassumption.
Qed.
Lemma dfind_keys {V} (d : list (key * V)) k : dfind d k = None <-> ~ In k (map fst d).
Proof.
  induction d as [|[k0 v0] d IH]; cbn; [tauto|]. destruct (key_eqb_spec k k0) as [->|N].
  - split; [discriminate|]. intros H. exfalso. apply H. auto.
  - rewrite IH. split; [|tauto]. intros H [E|I]; [congruence|tauto].
Qed.
Lemma dfind_in {V} (d : list (key * V)) k v : dfind d k = Some v -> In k (map fst d).
Proof.
  intros E. destruct (in_dec (list_eq_dec Z.eq_dec) k (map fst d)) as [I|N]; [assumption|].
  apply dfind_keys in N. congruence.
Qed.

(** ** Values *)
Section Sess.
Context {V : Type}.
Variable process : Z -> list V -> V + exn.
Variable as_tuple : V -> option (list V).
Variable feed : key -> option V.
Variable g : list gnode.
Hypothesis HA : acyclic g.

Notation node_outputs := (node_outputs process as_tuple feed g).
Notation entry_value := (entry_value process as_tuple feed g).
Notation raises := (raises process as_tuple feed g).
Notation unfed := (unfed feed g).

Lemma outputs_fun k r vs vs' : outputs as_tuple k r vs -> outputs as_tuple k r vs' -> vs = vs'.
Proof. intros [(H1 & ->)|(H1 & H2 & _)] [(H3 & ->)|(H3 & H4 & _)]; try lia; [reflexivity|congruence]. Qed.
Lemma outputs_len k r vs : outputs as_tuple k r vs -> length vs = k.
Proof. intros [(-> & ->)|(_ & _ & H)]; auto. Qed.

Lemma entry_fun e v v' : (forall vs vs', node_outputs (fst e) vs -> node_outputs (fst e) vs' -> vs = vs') ->
  entry_value e v -> entry_value e v' -> v = v'.
Proof.
  intros H H1 H2. inversion H1 as [m i nd nm v0 E Va Ei Ef|m i vs v0 N Ei]; subst;
    inversion H2 as [m' i' nd' nm' v0' E' Va' Ei' Ef'|m' i' vs' v0' N' Ei']; subst.
  - congruence.
  - inversion N'; subst. congruence.
  - inversion N; subst. congruence.
  - cbn in H. rewrite (H vs vs' N N') in Ei. congruence.
Qed.
Lemma args_fun l vs vs' : (forall e, In e l -> forall v v', entry_value e v -> entry_value e v' -> v = v') ->
  Forall2 entry_value l vs -> Forall2 entry_value l vs' -> vs = vs'.
Proof.
  intros H F. revert vs'. induction F as [|e v l vs Hv F IH]; intros vs' F'; inversion F'; subst; [reflexivity|].
  f_equal; [eapply H; [left; reflexivity|assumption|assumption]|].
  apply IH; [|assumption]. intros e' I. apply H. right. assumption.
Qed.
Lemma node_fun n vs vs' : node_outputs n vs -> node_outputs n vs' -> vs = vs'.
Proof.
  revert vs vs'. induction (HA n) as [n _ IH]. intros vs vs' H1 H2.
  inversion H1 as [n1 nd args r vs1 E Va F P O]; subst. inversion H2 as [n2 nd' args' r' vs2 E' Va' F' P' O']; subst.
  rewrite E in E'. injection E' as <-.
  assert (args = args').
  { eapply args_fun; [|eassumption|eassumption]. intros e I v v'. apply entry_fun. apply IH.
    exists nd, (snd e). split; [assumption|]. rewrite <- surjective_pairing. assumption. }
  subst. rewrite P in P'. injection P' as <-. eapply outputs_fun; eassumption.
Qed.
Lemma entry_value_fun e v v' : entry_value e v -> entry_value e v' -> v = v'.
Proof. apply entry_fun. intros vs vs'. apply node_fun. Qed.
Lemma args_value_fun l vs vs' : Forall2 entry_value l vs -> Forall2 entry_value l vs' -> vs = vs'.
Proof. apply args_fun. intros e _. apply entry_value_fun. Qed.

Lemma unfed_no_value e v : unfed e -> entry_value e v -> False.
Proof.
  intros (nd & nm & E & Va & En & Ef) H. inversion H as [m i nd' nm' v0 E' Va' Ei Ef'|m i vs v0 N Ei]; subst; cbn in *.
  - congruence.
  - inversion N; subst. congruence.
Qed.
Lemma raises_no_outputs n e vs : raises n e -> node_outputs n vs -> False.
Proof.
  intros H N. inversion N as [n0 nd args r vs0 E Va F P O]; subst.
  inversion H as [n1 nd' en E' Va' I U|n1 nd' args' e' E' Va' F' P'|n1 nd' args' r' E' Va' F' P' NO]; subst;
    rewrite E in E'; injection E' as <-.
  - destruct (forall2_in_l _ _ _ F _ I) as (v & _ & Hv). eapply unfed_no_value; eassumption.
  - rewrite (args_value_fun _ _ _ F F') in P. congruence.
  - rewrite (args_value_fun _ _ _ F F') in P. rewrite P in P'. injection P' as <-. eapply NO; eassumption.
Qed.

(** ** One node *)
Variable order : list nat.
Variable ns : list snode.
Hypothesis HK : distinct_keys g.
Hypothesis HD : NoDup order.
Hypothesis HS : Forall2 (same_node g order) order ns.

(** Position [i] of the session is the operator [n] of the graph. *)
Definition op_at (i n : nat) (nd : gnode) : Prop :=
  nth_error order i = Some n /\ nth_error g n = Some nd /\ n_var nd = false.

Lemma node_at i sd : nth_error ns i = Some sd -> exists n nd, nth_error order i = Some n /\
  nth_error g n = Some nd /\ s_var sd = n_var nd /\ s_op sd = n_op nd /\ s_outs sd = n_outs nd /\
  Forall2 (ent g order) (n_ins nd) (s_ins sd).
Proof.
  intros E. assert (L : (i < length order)%nat) by (rewrite (forall2_length _ _ _ HS); eapply nth_error_lt; eassumption).
  destruct (nth_error_ex order i L) as (n & En). destruct (forall2_nth _ _ _ HS i n En) as (sd' & E' & nd & H).
  rewrite E in E'. injection E' as <-. exists n, nd. tauto.
Qed.

Lemma keys_apart n n' nd nd' k : nth_error g n = Some nd -> nth_error g n' = Some nd' ->
  In k (n_outs nd) -> In k (n_outs nd') -> n = n'.
Proof.
  intros E E' I I'. unfold distinct_keys in HK. revert n n' E E'. clear HA HS. revert HK.
  induction g as [|y l IH]; intros HK' [|i] [|j] Ei Ej; cbn in *; try discriminate; [reflexivity| | |];
    apply nodup_app_iff in HK'; destruct HK' as (N1 & N2 & N3).
  - exfalso. injection Ei as ->. apply (N3 k I). apply in_flat_map. exists nd'.
    split; [apply nth_error_In in Ej; assumption|assumption].
  - exfalso. injection Ej as ->. apply (N3 k I'). apply in_flat_map. exists nd.
    split; [apply nth_error_In in Ei; assumption|assumption].
  - f_equal. apply IH; assumption.
Qed.
Lemma keys_nodup n nd : nth_error g n = Some nd -> NoDup (n_outs nd).
Proof.
  intros E. unfold distinct_keys in HK. revert n E. clear HA HS. revert HK.
  induction g as [|y l IH]; intros HK' [|i] E; cbn in *; try discriminate;
    apply nodup_app_iff in HK'; destruct HK' as (N1 & N2 & N3); [congruence|eapply IH; eassumption].
Qed.

(** The table holds the outputs of the operators at the positions in [S], and nothing else. *)
Definition holds (S : nat -> Prop) (dp : list (key * V)) : Prop :=
  (forall i n nd, S i -> op_at i n nd -> exists vs, node_outputs n vs /\
     forall j k v, nth_error (n_outs nd) j = Some k -> nth_error vs j = Some v -> dfind dp k = Some v) /\
  (forall k v, dfind dp k = Some v -> exists i n nd, S i /\ op_at i n nd /\ In k (n_outs nd)).

Lemma get_input_ok S dp e se : holds S dp -> ent g order e se ->
  (forall n nd, op_at (fst se) n nd -> S (fst se)) ->
  (exists v, get_input feed ns dp se = Ok v /\ entry_value e v) \/
  (get_input feed ns dp se = Exn CheckFailed /\ unfed e).
Proof.
  intros (H1 & _) (EK & EO) HSe. destruct (key_of_inv g e (snd se) EK) as (nd & End & Ek).
  destruct (forall2_nth _ _ _ HS _ _ EO) as (sd & Esd & nd' & End' & Ev & _ & _ & _).
  rewrite End in End'. injection End' as <-. unfold get_input. rewrite (rd_nth _ _ _ Esd). cbn [bind]. rewrite Ev.
  destruct (n_var nd) eqn:Va.
  - destruct (feed (snd se)) as [v|] eqn:Ef.
    + left. exists v. split; [reflexivity|]. rewrite (surjective_pairing e). eapply ev_input; eassumption.
    + right. split; [reflexivity|]. exists nd, (snd se). auto.
  - assert (OA : op_at (fst se) (fst e) nd) by (repeat split; assumption).
    destruct (H1 _ _ _ (HSe _ _ OA) OA) as (vs & N & L).
    assert (LV : length vs = length (n_outs nd)).
    { inversion N; subst. match goal with E : nth_error g (fst e) = Some ?x |- _ => rewrite End in E; injection E as <- end.
      eapply outputs_len; eassumption. }
    destruct (nth_error_ex vs (snd e)) as (v & Ev'); [rewrite LV; eapply nth_error_lt; eassumption|].
    rewrite (L _ _ _ Ek Ev'). left. exists v. split; [reflexivity|]. rewrite (surjective_pairing e).
    eapply ev_node; eassumption.
Qed.

Lemma args_ok S dp l sl : holds S dp -> Forall2 (ent g order) l sl ->
  (forall se, In se sl -> forall n nd, op_at (fst se) n nd -> S (fst se)) ->
  (exists vs, map_res (get_input feed ns dp) sl = Ok vs /\ Forall2 entry_value l vs) \/
  (map_res (get_input feed ns dp) sl = Exn CheckFailed /\ exists e, In e l /\ unfed e).
Proof.
  intros HH F. induction F as [|e se l sl R F IH]; intros HSe; cbn [map_res].
  { left. exists []. split; [reflexivity|constructor]. }
  destruct (get_input_ok S dp e se HH R) as [(v & -> & Hv)|(-> & U)].
  - apply HSe. left. reflexivity.
  - cbn [bind]. destruct IH as [(vs & -> & Fv)|(-> & e' & I & U)].
    + intros se' I. apply HSe. right. assumption.
    + left. exists (v :: vs). split; [reflexivity|constructor; assumption].
    + right. split; [reflexivity|]. exists e'. split; [right; assumption|assumption].
  - right. split; [reflexivity|]. exists e. split; [left; reflexivity|assumption].
Qed.


(** What the operator at position [i] adds to a table. *)
Definition adds (i : nat) (kvs : list (key * V)) : Prop :=
  exists n nd vs, op_at i n nd /\ node_outputs n vs /\ length vs = length (n_outs nd) /\ kvs = combine (n_outs nd) vs.


Lemma run_one_ok S dp out i n nd : holds S dp -> op_at i n nd ->
  (forall se sd, nth_error ns i = Some sd -> In se (s_ins sd) -> forall m md, op_at (fst se) m md -> S (fst se)) ->
  (forall k, In k (n_outs nd) -> dfind out k = None) ->
  (exists kvs, run_one process as_tuple feed ns dp out true i = Ok (out ++ kvs) /\ adds i kvs) \/
  (exists e, run_one process as_tuple feed ns dp out true i = Exn e /\ raises n e).
Proof.
  intros HH OA HSe FR. destruct OA as (EO & End & Va).
  destruct (forall2_nth _ _ _ HS _ _ EO) as (sd & Esd & nd' & End' & Ev & Eop & Eo & FI).
  rewrite End in End'. injection End' as <-. unfold run_one. rewrite (rd_nth _ _ _ Esd). cbn [bind].
  rewrite Ev, Va. cbn [negb].
  destruct (args_ok S dp _ _ HH FI) as [(args & -> & FA)|(-> & e & I & U)].
  { intros se I. eapply HSe; eassumption. }
  2: { right. exists CheckFailed. split; [reflexivity|]. eapply ra_feed; eassumption. }
  cbn [bind]. rewrite Eop. destruct (process (n_op nd) args) as [r|e] eqn:EP.
  2: { right. exists e. split; [reflexivity|]. eapply ra_op; eassumption. }
  rewrite Eo.
  assert (FAIL : (forall vs, ~ outputs as_tuple (length (n_outs nd)) r vs) -> raises n CheckFailed).
  { intros NO. eapply ra_shape; eassumption. }
  assert (OKK : forall vs, outputs as_tuple (length (n_outs nd)) r vs -> adds i (combine (n_outs nd) vs)).
  { intros vs O. exists n, nd, vs. split; [repeat split; assumption|]. split; [econstructor; eassumption|].
    split; [eapply outputs_len; eassumption|reflexivity]. }
  destruct (Nat.ltb_spec 1 (length (n_outs nd))) as [L|L].
  - destruct (as_tuple r) as [vs|] eqn:ET.
    + destruct (Nat.eqb_spec (length vs) (length (n_outs nd))) as [EL|NL].
      * left. exists (combine (n_outs nd) vs). split.
        -- f_equal. apply emplace_all; rewrite combine_fst by congruence; [eapply keys_nodup; eassumption|assumption].
        -- apply OKK. right. auto.
      * right. exists CheckFailed. split; [reflexivity|]. apply FAIL. intros vs' [(E1 & _)|(_ & E1 & E2)]; [lia|congruence].
    + right. exists CheckFailed. split; [reflexivity|]. apply FAIL. intros vs' [(E1 & _)|(_ & E1 & E2)]; [lia|congruence].
  - destruct (n_outs nd) as [|k [|k' ks]] eqn:EK; [| |cbn in L; lia].
    + right. exists CheckFailed. split; [reflexivity|]. apply FAIL. intros vs' [(E1 & _)|(E1 & _)]; cbn in E1; lia.
    + left. exists [(k, r)]. split.
      * unfold demplace. rewrite FR by (left; reflexivity). reflexivity.
      * specialize (OKK [r]). cbn in OKK. apply OKK. left. auto.
Qed.

Lemma adds_keys i n nd kvs : op_at i n nd -> adds i kvs -> map fst kvs = n_outs nd.
Proof.
  intros (E1 & E2 & _) (n' & nd' & vs & (E1' & E2' & _) & _ & L & ->). rewrite E1 in E1'. injection E1' as <-.
  rewrite E2 in E2'. injection E2' as <-. apply combine_fst. congruence.
Qed.

Lemma op_at_pos i i' n nd n' nd' k : op_at i n nd -> op_at i' n' nd' -> In k (n_outs nd) -> In k (n_outs nd') -> i = i'.
Proof.
  intros (E1 & E2 & _) (E1' & E2' & _) I I'.
  assert (n = n') by (eapply keys_apart; eassumption). subst.
  apply (proj1 (NoDup_nth_error order)); [assumption|eapply nth_error_lt; eassumption|congruence].
Qed.

Lemma holds_fresh S dp i n nd k : holds S dp -> op_at i n nd -> ~ S i -> In k (n_outs nd) -> dfind dp k = None.
Proof.
  intros (_ & H2) OA NS I. destruct (dfind dp k) as [v|] eqn:E; [|reflexivity]. exfalso.
  destruct (H2 k v E) as (i' & n' & nd' & Si & OA' & I'). apply NS.
  rewrite (op_at_pos _ _ _ _ _ _ _ OA OA' I I'). assumption.
Qed.

Lemma holds_ext (S S' : nat -> Prop) dp : (forall i n nd, op_at i n nd -> (S i <-> S' i)) -> holds S dp -> holds S' dp.
Proof.
  intros H (H1 & H2). split.
  - intros i n nd Si OA. apply (H1 i n nd); [apply (H _ _ _ OA); assumption|assumption].
  - intros k v E. destruct (H2 k v E) as (i & n & nd & Si & OA & I). exists i, n, nd.
    split; [apply (H _ _ _ OA); assumption|auto].
Qed.

Lemma holds_add S dp i kvs : holds S dp -> ~ S i -> adds i kvs -> holds (fun j => S j \/ j = i) (dp ++ kvs).
Proof.
  intros HH NS AD. destruct AD as (n & nd & vs & OA & N & L & ->). pose proof HH as (H1 & H2). split.
  - intros j m md [Sj| ->] OB.
    + destruct (H1 _ _ _ Sj OB) as (vs' & N' & F). exists vs'. split; [assumption|].
      intros j' k v E1 E2. rewrite dfind_app, (F _ _ _ E1 E2). reflexivity.
    + destruct OA as (E1 & E2 & Va). destruct OB as (E1' & E2' & _). rewrite E1 in E1'. injection E1' as <-.
      rewrite E2 in E2'. injection E2' as <-. exists vs. split; [assumption|]. intros j' k v F1 F2.
      rewrite dfind_app. rewrite (holds_fresh S dp i n nd k HH); [|repeat split; assumption|assumption|eapply nth_error_In; eassumption].
      eapply dfind_combine; [eapply keys_nodup; eassumption|eassumption|assumption].
  - intros k v E. rewrite dfind_app in E. destruct (dfind dp k) as [v'|] eqn:Ed.
    + destruct (H2 k v' Ed) as (j & m & md & Sj & OB & I). exists j, m, md. auto.
    + exists i, n, nd. split; [auto|]. split; [assumption|]. apply dfind_in in E. rewrite combine_fst in E by congruence. assumption.
Qed.

Lemma holds_adds S dp is kvss : holds S dp -> NoDup is -> (forall i, In i is -> ~ S i) -> Forall2 adds is kvss ->
  holds (fun j => S j \/ In j is) (dp ++ concat kvss).
Proof.
  intros HH ND NS F. revert S dp HH NS. induction F as [|i kvs is kvss A F IH]; intros S dp HH NS; cbn [concat].
  - rewrite app_nil_r. eapply holds_ext; [|exact HH]. intros i n nd _. cbn. tauto.
  - inversion ND as [|? ? Ni ND']; subst. rewrite app_assoc.
    eapply holds_ext; [|apply (IH ND' (fun j => S j \/ j = i))].
    + intros j m md _. cbn. intuition congruence.
    + apply holds_add; [assumption|apply NS; left; reflexivity|assumption].
    + intros j I [Sj| ->]; [apply (NS j); [right; assumption|assumption]|contradiction].
Qed.
End Sess.

(** ** Whole runs *)
Lemma nth_error_ext' {A} (l l' : list A) : (forall i, nth_error l i = nth_error l' i) -> l = l'.
Proof.
  revert l'. induction l as [|x l IH]; intros [|y l'] H; [reflexivity| | |].
  - specialize (H 0%nat). discriminate.
  - specialize (H 0%nat). discriminate.
  - f_equal; [specialize (H 0%nat); cbn in H; congruence|]. apply IH. intros i. apply (H (S i)).
Qed.
Section Runs.
Context {V : Type}.
Variable process : Z -> list V -> V + exn.
Variable as_tuple : V -> option (list V).
Variable feed : key -> option V.
Variable g : list gnode.
Variable outs : list (nat * nat).
Variable names : list key.
Variable s : session.
Variable order : list nat.
Hypothesis HA : acyclic g.
Hypothesis HK : distinct_keys g.
Hypothesis HT : traced g outs names s order.
Hypothesis HN : Z.of_nat (length outs) < two64.

Notation node_outputs := (node_outputs process as_tuple feed g).
Notation entry_value := (entry_value process as_tuple feed g).
Notation raises := (raises process as_tuple feed g).
Notation unfed := (unfed feed g).
Notation holds := (holds process as_tuple feed g order).
Notation adds := (adds process as_tuple feed g order).
Notation op_at := (op_at g order).
Notation ns := (ss_nodes s).
Notation right_answer := (right_answer process as_tuple feed g outs names).
Notation right_error := (right_error process as_tuple feed g outs).

Lemma t_nodup : NoDup order. Proof. apply HT. Qed.
Lemma t_same : Forall2 (same_node g order) order ns. Proof. apply HT. Qed.
Lemma t_needed n : In n order <-> needed g (map fst outs) n. Proof. apply HT. Qed.
Lemma t_len : length ns = length order. Proof. symmetry. eapply forall2_length. apply t_same. Qed.

Lemma op_needed i n nd : op_at i n nd -> needed g (map fst outs) n.
Proof. intros (E & _). apply t_needed. apply nth_error_In in E. assumption. Qed.

Lemma op_at_snode i sd : nth_error ns i = Some sd -> s_var sd = false -> exists n nd, op_at i n nd.
Proof.
  intros E Va. destruct (node_at g order ns t_same i sd E) as (n & nd & E1 & E2 & Ev & _).
  exists n, nd. repeat split; [assumption|assumption|congruence].
Qed.

Lemma set_output_ok dp : holds (fun _ => True) dp ->
  (exists r, set_output feed s dp = Ok r /\ right_answer r) \/
  (set_output feed s dp = Exn CheckFailed /\ right_error CheckFailed).
Proof.
  intros HH. unfold set_output.
  assert (SO : Forall2 (ent g order) outs (ss_outs s)) by apply HT.
  assert (EN : ss_out_names s = names) by apply HT. rewrite EN.
  assert (LO : length (ss_outs s) = length outs) by (symmetry; eapply forall2_length; eassumption).
  set (us := Nat.eqb (length names) (length (ss_outs s))).
  assert (X : forall es ses k, Forall2 (ent g order) es ses -> (k + length es = length outs)%nat ->
    (exists r, map_res (fun '(i, e) => let! v := get_input feed ns dp e in
        let! name := if us then rd names i else Ok (dec_digits 20 (Z.of_nat i) []) in Ok (name, v))
        (combine (seq k (length ses)) ses) = Ok r /\ Forall2 entry_value es (map snd r) /\
      (forall i nm, nth_error (map fst r) i = Some nm -> result_name names (length outs) (k + i) nm)) \/
    (map_res (fun '(i, e) => let! v := get_input feed ns dp e in
        let! name := if us then rd names i else Ok (dec_digits 20 (Z.of_nat i) []) in Ok (name, v))
        (combine (seq k (length ses)) ses) = Exn CheckFailed /\ exists e, In e es /\ unfed e)).
  { intros es ses k F. revert k. induction F as [|e se es ses R F IH]; intros k L; cbn [length seq combine map_res].
    - left. exists []. split; [reflexivity|]. split; [constructor|]. intros i nm E. destruct i; discriminate.
    - destruct (get_input_ok process as_tuple feed g order ns t_same _ dp e se HH R) as [(v & -> & Hv)|(-> & U)]; [auto| |].
      + cbn [bind].
        assert (NM : exists nm, (if us then rd names k else Ok (dec_digits 20 (Z.of_nat k) [])) = Ok nm /\
                   result_name names (length outs) k nm).
        { cbn in L. unfold us. destruct (Nat.eqb_spec (length names) (length (ss_outs s))) as [El|Nl].
          - destruct (nth_error_ex names k) as (nm & Enm); [lia|]. exists nm. rewrite (rd_nth _ _ _ Enm).
            split; [reflexivity|]. left. split; [lia|assumption].
          - eexists. split; [reflexivity|]. right. split; [lia|]. apply dec20. lia. }
        destruct NM as (nm & -> & RN). cbn [bind].
        destruct (IH (S k)) as [(r & -> & FV & NN)|(-> & e' & I & U)]; [cbn in L; lia| |].
        * left. exists ((nm, v) :: r). split; [reflexivity|]. split; [constructor; assumption|].
          intros [|i] nm' E; cbn in E.
          -- injection E as <-. rewrite Nat.add_0_r. assumption.
          -- rewrite Nat.add_succ_r. apply (NN i nm' E).
        * right. split; [reflexivity|]. exists e'. split; [right; assumption|assumption].
      + right. split; [reflexivity|]. exists e. split; [left; reflexivity|assumption]. }
  destruct (X outs (ss_outs s) 0%nat SO eq_refl) as [(r & -> & FV & NN)|(-> & e & I & U)].
  - left. exists r. split; [reflexivity|]. split; [|split; assumption].
    intros n nd ND E Va. apply t_needed in ND. apply In_nth_error in ND. destruct ND as (i & Ei).
    destruct HH as (H1 & _). destruct (H1 i n nd) as (vs & N & _); [exact Logic.I|repeat split; assumption|]. eauto.
  - right. split; [reflexivity|]. right. split; [reflexivity|]. eauto.
Qed.

(** *** One after the other *)
Lemma serial_prefix k : (k <= length ns)%nat ->
  (exists dp, fold_left (fun (acc : res dict) n => let! dp := acc in run_one process as_tuple feed ns dp dp true n)
                (seq 0 k) (Ok []) = Ok dp /\ holds (fun j => (j < k)%nat) dp) \/
  (exists e, fold_left (fun (acc : res dict) n => let! dp := acc in run_one process as_tuple feed ns dp dp true n)
                (seq 0 k) (Ok []) = Exn e /\ right_error e).
Proof.
  induction k as [|k IH]; intros L.
  { left. exists []. split; [reflexivity|]. split; [intros i n nd H; lia|discriminate]. }
  rewrite seq_S, fold_left_app. cbn [fold_left Nat.add].
  destruct (IH ltac:(lia)) as [(dp & -> & HH)|(e & -> & R)]; [|right; exists e; auto].
  cbn [bind]. destruct (nth_error_ex ns k ltac:(lia)) as (sd & Esd).
  destruct (s_var sd) eqn:Va.
  - left. exists dp. split; [unfold run_one; rewrite (rd_nth _ _ _ Esd); cbn [bind]; rewrite Va; reflexivity|].
    eapply holds_ext; [|exact HH]. intros i n nd OA. split; [lia|]. intros Hi.
    destruct (Nat.eq_dec i k) as [->|]; [|lia]. exfalso.
    destruct (node_at g order ns t_same k sd Esd) as (n' & nd' & E1 & E2 & Ev & _).
    destruct OA as (F1 & F2 & F3). congruence.
  - destruct (op_at_snode k sd Esd Va) as (n & nd & OA).
    destruct (run_one_ok process as_tuple feed g order ns HK t_same _ dp dp k n nd HH OA) as [(kvs & -> & AD)|(e & -> & R)].
    + intros se sd' E I m md OB. assert ((fst se < k)%nat); [|assumption].
      destruct HT as (_ & _ & _ & _ & _ & _ & ORD). eapply ORD; eassumption.
    + intros k' I. eapply holds_fresh; [apply HK|apply t_nodup|exact HH|exact OA|cbn; lia|assumption].
    + left. exists (dp ++ kvs). split; [reflexivity|].
      eapply holds_ext; [|eapply holds_add; [apply HK|apply t_nodup|exact HH| |exact AD]]; cbn; [intros; lia|lia].
    + right. exists e. split; [reflexivity|]. left. exists n. split; [eapply op_needed; eassumption|assumption].
Qed.

Lemma serial_ok : (exists r, run_serial process as_tuple feed s = Ok r /\ right_answer r) \/
  (exists e, run_serial process as_tuple feed s = Exn e /\ right_error e).
Proof.
  unfold run_serial. assert (NE : ns <> []).
  { intros E. pose proof t_len as L. rewrite E in L. destruct HT as (_ & NO & _). destruct order; [congruence|discriminate]. }
  destruct ns as [|x0 l0] eqn:E0; [congruence|]. rewrite <- E0. clear NE.
  destruct (serial_prefix (length ns) ltac:(lia)) as [(dp & -> & HH)|(e & -> & R)]; [|right; exists e; auto].
  cbn [bind]. destruct (set_output_ok dp) as [(r & -> & RA)|(-> & RE)].
  - eapply holds_ext; [|exact HH]. intros i n nd (E & _). split; [auto|]. intros _. rewrite t_len.
    eapply nth_error_lt; eassumption.
  - left. eauto.
  - right. eauto.
Qed.

(** *** Tasks *)

Lemma skipn_add {A} a b (l : list A) : skipn (a + b) l = skipn b (skipn a l).
Proof.
  revert l. induction a as [|a IH]; intros l; [reflexivity|]. destruct l; [rewrite !skipn_nil; reflexivity|]. apply IH.
Qed.
Lemma chunks_concat {A} (st : nat) num : forall l : list A, (length l <= st * num)%nat ->
  concat (map (fun i => firstn st (skipn (st * i) l)) (seq 0 num)) = l.
Proof.
  induction num as [|num IH]; intros l L.
  - destruct l; [reflexivity|cbn in L; lia].
  - cbn [seq map concat]. rewrite Nat.mul_0_r. cbn [skipn]. rewrite <- seq_shift, map_map.
    rewrite (map_ext _ (fun i => firstn st (skipn (st * i) (skipn st l)))).
    + rewrite IH; [apply firstn_skipn|]. rewrite skipn_length. lia.
    + intros i. rewrite Nat.mul_succ_r, Nat.add_comm, skipn_add. reflexivity.
Qed.

Lemma map_res_map {A B} (f : A -> res B) (h : A -> B) l : (forall a, In a l -> f a = Ok (h a)) -> map_res f l = Ok (map h l).
Proof.
  induction l as [|a l IH]; intros H; [reflexivity|]. cbn [map_res map].
  rewrite (H a (or_introl eq_refl)), IH by (intros x Hx; apply H; right; assumption). reflexivity.
Qed.

Lemma make_tasks_ok o gr : good_options o -> (2 <= length gr)%nat ->
  exists chunks, make_tasks (V := V) o gr =
      Ok (map (fun c => {| t_todo := c; t_i := 0%nat; t_out := []; t_err := None |}) chunks) /\
    concat chunks = gr /\ (length chunks <= length gr)%nat /\ Forall (fun c => (o_meta o = true \/ (length c <= 1)%nat)) chunks.
Proof.
  intros (HT1 & HM & HME) L. unfold make_tasks, idiv.
  set (n := Z.of_nat (length gr)).
  destruct (Z.eqb_spec (o_threads o) 0); [lia|]. cbn [bind].
  set (s0 := Z.quot (n + o_threads o - 1) (o_threads o)).
  assert (S0 : 1 <= s0) by (unfold s0; rewrite Z.quot_div_nonneg by lia; nia).
  clearbody s0.
  set (s1 := if s0 <? o_min o then o_min o else s0).
  assert (S1 : 1 <= s1) by (unfold s1; destruct (Z.ltb_spec s0 (o_min o)); lia). clearbody s1.
  set (st := if s1 >? o_max o then o_max o else s1).
  assert (S2 : 1 <= st <= o_max o) by (unfold st; destruct (Z.gtb_spec s1 (o_max o)); lia). clearbody st.
  destruct (Z.eqb_spec st 0); [lia|]. cbn [bind].
  rewrite Z.quot_div_nonneg by lia. set (num := (n + st - 1) / st).
  assert (N1 : st * num >= n) by (unfold num; nia).
  assert (N2 : st * (num - 1) < n) by (unfold num; nia).
  assert (N3 : 1 <= num) by (unfold num; nia).
  clearbody num.
  destruct (Z.ltb_spec num 0); [lia|]. destruct (Z.eqb_spec num 0); [lia|].
  exists (map (fun i => firstn (Z.to_nat st) (skipn (Z.to_nat st * i) gr)) (seq 0 (Z.to_nat num))).
  split; [|split; [|split]].
  - rewrite map_map.
    apply map_res_map. intros i I. apply in_seq in I. cbv zeta.
      assert (Hi : (i < Z.to_nat num)%nat) by lia.
      set (real := if Z.of_nat i + 1 =? num then n - Z.of_nat i * st else st).
      assert (RR : 1 <= real <= st /\ st * Z.of_nat i + real <= n /\
                   (real = st \/ st * Z.of_nat i + real = n)).
      { unfold real. destruct (Z.eqb_spec (Z.of_nat i + 1) num) as [E|N].
        - assert (Z.of_nat i = num - 1) as -> by lia. lia.
        - assert (st * (Z.of_nat i + 1) <= st * (num - 1)) by (apply Z.mul_le_mono_nonneg_l; lia). lia. }
      destruct (Z.ltb_spec real 1); [lia|]. unfold slice. fold n.
      assert (0 <= st * Z.of_nat i) by (apply Z.mul_nonneg_nonneg; lia).
      replace ((0 <=? st * Z.of_nat i) && (0 <=? real) && (st * Z.of_nat i + real <=? n)) with true by lia.
      cbn [bind].
      do 2 f_equal. rewrite Z2Nat.inj_mul, Nat2Z.id by lia.
      destruct RR as (RR1 & _ & [E|E]); [rewrite E; reflexivity|].
      assert (EP : Z.of_nat (Z.to_nat st * i) = st * Z.of_nat i) by (rewrite Nat2Z.inj_mul, Z2Nat.id by lia; reflexivity).
      unfold n in *. rewrite !firstn_all2; [reflexivity| |]; rewrite skipn_length; lia.
  - apply chunks_concat. apply Nat2Z.inj_le. rewrite Nat2Z.inj_mul, !Z2Nat.id by lia. lia.
  - rewrite map_length, seq_length. unfold n in *. nia.
  - apply Forall_forall. intros c I. apply in_map_iff in I. destruct I as (i & <- & _).
    destruct HME as [M|M]; [auto|]. right. rewrite firstn_length. lia.
Qed.

(** A task that started with the nodes [c]. *)
Definition task_inv (c : list nat) (t : @task V) : Prop :=
  match t_err t with
  | Some e => right_error e
  | None => exists dn kvss, c = dn ++ t_todo t /\ t_i t = length dn /\ Forall2 adds dn kvss /\ t_out t = concat kvss
  end.

Section OneGroup.
Variable o : options.
Hypothesis HOPT : good_options o.
Variable S : nat -> Prop.
Variable dp : list (key * V).
Hypothesis HH : holds S dp.
Variable gr : list nat.
Hypothesis HGO : forall i, In i gr -> exists n nd, op_at i n nd.
Hypothesis HGD : NoDup gr.
Hypothesis HGS : forall i, In i gr -> ~ S i.
Hypothesis HGI : forall i sd se, In i gr -> nth_error ns i = Some sd -> In se (s_ins sd) ->
  forall m md, op_at (fst se) m md -> S (fst se).

Lemma adds_in_keys is kvss : Forall2 adds is kvss -> forall k, In k (map fst (concat kvss)) ->
  exists i n nd, In i is /\ op_at i n nd /\ In k (n_outs nd).
Proof.
  induction 1 as [|i kvs is kvss A F IH]; intros k I; [destruct I|]. cbn [concat] in I. rewrite map_app, in_app_iff in I.
  destruct I as [I|I].
  - pose proof A as (n & nd & vs & OA & _). rewrite (adds_keys _ _ _ _ _ _ _ _ _ OA A) in I. exists i, n, nd.
    split; [left; reflexivity|auto].
  - destruct (IH k I) as (j & n & nd & J & H). exists j, n, nd. split; [right; assumption|assumption].
Qed.
Lemma adds_nodup is kvss : NoDup is -> Forall2 adds is kvss -> NoDup (map fst (concat kvss)).
Proof.
  intros ND F. induction F as [|i kvs is kvss A F IH]; [constructor|]. inversion ND as [|? ? Ni ND']; subst.
  cbn [concat]. rewrite map_app. apply nodup_app_iff. pose proof A as (n & nd & vs & OA & _).
  rewrite (adds_keys _ _ _ _ _ _ _ _ _ OA A). split; [|split].
  - destruct OA as (_ & E & _). eapply keys_nodup; eassumption.
  - auto.
  - intros k I I'. destruct (adds_in_keys _ _ F k I') as (j & m & md & Ij & OB & Ik).
    apply Ni. rewrite (op_at_pos g order HK t_nodup _ _ _ _ _ _ _ OA OB I Ik). assumption.
Qed.

Lemma task_step_ok c t : incl c gr -> NoDup c -> (o_meta o = true \/ (length c <= 1)%nat) -> task_inv c t ->
  exists t', task_step process as_tuple feed ns dp (o_meta o) t = Ok t' /\ task_inv c t' /\
    (task_done t' = true \/ (length (t_todo t') < length (t_todo t))%nat) /\
    (task_done t = true -> t' = t).
Proof.
  intros IC ND HM TI. unfold task_step, task_done, task_inv in *. destruct (t_err t) as [e|] eqn:EE.
  { exists t. rewrite EE. auto. }
  destruct TI as (dn & kvss & Ec & Ei & F & Eo). destruct (t_todo t) as [|n todo] eqn:ET.
  { exists t. rewrite EE, ET. split; [reflexivity|]. split; [exists dn, kvss; auto|]. auto. }
  assert (MB : (o_meta o || Nat.eqb (t_i t) 0)%bool = true).
  { destruct HM as [->|L]; [reflexivity|]. rewrite Ec, app_length in L. cbn in L. rewrite Ei.
    replace (length dn) with 0%nat by lia. apply Bool.orb_true_r. }
  rewrite MB.
  assert (Ig : In n gr) by (apply IC; rewrite Ec; apply in_or_app; right; left; reflexivity).
  destruct (HGO n Ig) as (m & nd & OA).
  destruct (run_one_ok process as_tuple feed g order ns HK t_same S dp (t_out t) n m nd HH OA) as [(kvs & -> & AD)|(e & -> & R)].
  - intros se sd E I. eapply HGI; eassumption.
  - intros k Ik. rewrite Eo. apply dfind_keys. intros I'. destruct (adds_in_keys _ _ F k I') as (j & m' & md & Ij & OB & Ik').
    assert (n = j) by (eapply (op_at_pos g order HK t_nodup); eassumption). subst j.
    rewrite Ec in ND. apply nodup_app_iff in ND. destruct ND as (_ & _ & D). apply (D n Ij). left. reflexivity.
  - eexists. split; [reflexivity|]. cbn. split; [|split; [right; lia|discriminate]].
    exists (dn ++ [n]), (kvss ++ [kvs]). split; [rewrite <- app_assoc; assumption|].
    split; [rewrite app_length; cbn; lia|]. split; [apply Forall2_app; [assumption|constructor; [assumption|constructor]]|].
    rewrite concat_app, Eo. cbn. rewrite app_nil_r. reflexivity.
  - eexists. split; [reflexivity|]. cbn. split; [|split; [left; reflexivity|discriminate]].
    left. exists m. split; [eapply op_needed; eassumption|assumption].
Qed.

Definition good_chunk (c : list nat) : Prop :=
  incl c gr /\ NoDup c /\ (o_meta o = true \/ (length c <= 1)%nat).

Lemma forall2_lset {A B} (R : A -> B -> Prop) l l' i x y : Forall2 R l l' -> nth_error l i = Some x -> R x y ->
  Forall2 R l (lset l' i y).
Proof.
  intros F. revert i. induction F as [|a b l l' H F IH]; intros [|i] E Rx; cbn in *; try discriminate.
  - injection E as ->. constructor; assumption.
  - constructor; [assumption|]. apply IH; assumption.
Qed.
Lemma forall2_nth_r {A B} (R : A -> B -> Prop) l l' : Forall2 R l l' ->
  forall i b, nth_error l' i = Some b -> exists a, nth_error l i = Some a /\ R a b.
Proof.
  induction 1 as [|a b l l' Hab H IH]; intros [|i] x E; cbn in *; try discriminate; [|eauto].
  injection E as <-. eauto.
Qed.

(** [left_over]: what a task may still have to do when it took [k] steps. *)
Lemma run_sched_ok cs sched : Forall good_chunk cs -> forall ts, Forall2 task_inv cs ts ->
  exists ts', run_sched process as_tuple feed ns dp (o_meta o) ts sched = Ok ts' /\ Forall2 task_inv cs ts' /\
    forall i t, nth_error ts i = Some t -> exists t', nth_error ts' i = Some t' /\
      (task_done t' = true \/ (length (t_todo t') + count_occ Nat.eq_dec sched i <= length (t_todo t))%nat) /\
      (task_done t = true -> t' = t).
Proof.
  intros HC. induction sched as [|j sched IH]; intros ts F; cbn [run_sched].
  - exists ts. split; [reflexivity|]. split; [assumption|]. intros i t E. exists t. cbn. split; [assumption|]. split; [right; lia|auto].
  - destruct (nth_error ts j) as [t|] eqn:Ej.
    + destruct (forall2_nth_r _ _ _ F j t Ej) as (c & Ec & TI).
      rewrite Forall_forall in HC. destruct (HC c (nth_error_In _ _ Ec)) as (C1 & C2 & C3).
      destruct (task_step_ok c t C1 C2 C3 TI) as (t' & -> & TI' & PR & FX). cbn [bind].
      destruct (IH (lset ts j t')) as (ts' & -> & F' & PR'); [eapply forall2_lset; eassumption|].
      exists ts'. split; [reflexivity|]. split; [assumption|]. intros i t0 E0.
      assert (Lj : (j < length ts)%nat) by (eapply nth_error_lt; eassumption).
      destruct (Nat.eq_dec j i) as [->|N].
      * rewrite Ej in E0. injection E0 as <-.
        destruct (PR' i t') as (t2 & E2 & P2 & X2); [apply nth_lset_eq; assumption|].
        exists t2. split; [assumption|]. split.
        -- rewrite count_occ_cons_eq by reflexivity. destruct PR as [D|L].
           ++ left. rewrite (X2 D). assumption.
           ++ destruct P2 as [D2|L2]; [left; assumption|right; lia].
        -- intros D. rewrite (FX D) in X2. apply X2. assumption.
      * destruct (PR' i t0) as (t2 & E2 & P2 & X2); [rewrite nth_lset_ne; assumption|].
        exists t2. rewrite count_occ_cons_neq by assumption. auto.
    + destruct (IH ts F) as (ts' & -> & F' & PR'). exists ts'. split; [reflexivity|]. split; [assumption|].
      intros i t0 E0. destruct (PR' i t0 E0) as (t2 & E2 & P2 & X2). exists t2.
      rewrite count_occ_cons_neq by congruence. auto.
Qed.

Lemma merge_ok ts cs : Forall2 task_inv cs ts -> forallb task_done ts = true -> first_error ts = None ->
  exists kvss, Forall2 adds (concat cs) kvss /\ concat (map t_out ts) = concat kvss.
Proof.
  intros F. induction F as [|c t cs ts TI F IH]; intros D E; cbn in *; [exists []; split; [constructor|reflexivity]|].
  apply Bool.andb_true_iff in D. destruct D as (D1 & D2). unfold task_inv in TI.
  destruct (t_err t) as [e|] eqn:EE; [discriminate|].
  destruct (IH D2 E) as (kvss & FK & EK). destruct TI as (dn & kv1 & Ec & _ & F1 & Eo).
  unfold task_done in D1. rewrite EE in D1. destruct (t_todo t); [|discriminate]. rewrite app_nil_r in Ec. subst c.
  exists (kv1 ++ kvss). split; [apply Forall2_app; assumption|]. rewrite concat_app. congruence.
Qed.

Lemma merge_flat (ts : list (@task V)) d : merge d ts = fold_left (fun d '(k, v) => demplace d k v) (concat (map t_out ts)) d.
Proof.
  unfold merge. revert d. induction ts as [|t ts IH]; intros d; cbn; [reflexivity|]. rewrite IH, fold_left_app. reflexivity.
Qed.


Lemma run_group_ok sched :
  (run_group process as_tuple feed o ns dp gr sched = Ok None /\ ~ enough gr sched) \/
  (exists dp', run_group process as_tuple feed o ns dp gr sched = Ok (Some dp') /\
     holds (fun i => S i \/ In i gr) dp') \/
  (exists e, run_group process as_tuple feed o ns dp gr sched = Exn e /\ right_error e).
Proof.
  unfold run_group. destruct gr as [|n0 [|n1 gr']] eqn:EG.
  - right. left. exists dp. split; [reflexivity|]. eapply holds_ext; [|exact HH]. cbn. tauto.
  - destruct (HGO n0 (or_introl eq_refl)) as (n & nd & OA).
    destruct (run_one_ok process as_tuple feed g order ns HK t_same S dp dp n0 n nd HH OA) as [(kvs & -> & AD)|(e & -> & R)].
    + intros se sd E I. eapply HGI; [left; reflexivity|eassumption|assumption].
    + intros k Ik. eapply holds_fresh; [apply HK|apply t_nodup|exact HH|exact OA|apply HGS; left; reflexivity|assumption].
    + right. left. exists (dp ++ kvs). split; [reflexivity|].
      eapply holds_ext; [|eapply holds_add; [apply HK|apply t_nodup|exact HH| |exact AD]]; cbn.
      * intros i m md _. intuition congruence.
      * apply HGS. left. reflexivity.
    + right. right. exists e. split; [reflexivity|]. left. exists n. split; [eapply op_needed; eassumption|assumption].
  - rewrite <- EG in *. destruct (make_tasks_ok o gr HOPT) as (cs & -> & EC & LCS & FC); [rewrite EG; cbn; lia|].
    cbn [bind]. clear EG n0 n1 gr'.
    assert (GC : Forall good_chunk cs).
    { apply Forall_forall. intros c I. rewrite Forall_forall in FC. split; [|split; [|apply FC; assumption]].
      - intros x Ix. rewrite <- EC. apply in_concat. eauto.
      - rewrite <- EC in HGD. clear -HGD I. induction cs as [|c0 cs IH]; [destruct I|].
        cbn in HGD. apply nodup_app_iff in HGD. destruct I as [->|I]; [tauto|apply IH; tauto]. }
    set (ts0 := map (fun c => {| t_todo := c; t_i := 0%nat; t_out := []; t_err := None |}) cs).
    assert (F0 : Forall2 task_inv cs ts0).
    { unfold ts0. clear. induction cs as [|c cs IH]; constructor; [|assumption]. cbn. exists [], []. repeat split. constructor. }
    destruct (run_sched_ok cs sched GC ts0 F0) as (ts & -> & F & PR). cbn [bind].
    destruct (forallb task_done ts) eqn:DN.
    + destruct (first_error ts) as [e|] eqn:FE.
      * right. right. exists e. split; [reflexivity|]. clear -F FE. induction F as [|c t cs ts TI F IH]; cbn in FE; [discriminate|].
        unfold task_inv in TI. destruct (t_err t) as [e'|]; [injection FE as <-; assumption|auto].
      * right. left. exists (merge dp ts). split; [reflexivity|].
        destruct (merge_ok ts cs F DN FE) as (kvss & FK & EK). rewrite EC in FK.
        rewrite merge_flat, EK, emplace_all.
        -- eapply holds_adds; [apply HK|apply t_nodup|exact HH|assumption|assumption|assumption].
        -- eapply adds_nodup; eassumption.
        -- intros k Ik. destruct (adds_in_keys _ _ FK k Ik) as (i & n & nd & Ii & OA & Ink).
           eapply holds_fresh; [apply HK|apply t_nodup|exact HH|exact OA|apply HGS; assumption|assumption].
    + left. split; [reflexivity|]. intros EN.
      assert (X : forallb task_done ts = true); [|congruence].
      apply forallb_forall. intros t It. apply In_nth_error in It. destruct It as (i & Ei).
      destruct (forall2_nth_r _ _ _ F i t Ei) as (c & Ec & _).
      assert (E0 : nth_error ts0 i = Some {| t_todo := c; t_i := 0%nat; t_out := []; t_err := None |}).
      { unfold ts0. rewrite nth_error_map, Ec. reflexivity. }
      destruct (PR i _ E0) as (t' & Et' & P & _). rewrite Ei in Et'. injection Et' as <-. cbn [t_todo] in P.
      destruct P as [D|L]; [assumption|].
      assert (LC : (length c <= length gr)%nat).
      { rewrite <- EC. apply nth_error_In in Ec. clear -Ec. induction cs as [|c0 cs IH]; [destruct Ec|].
        cbn. rewrite app_length. destruct Ec as [->|I]; [lia|]. specialize (IH I). lia. }
      assert (Li : (i < length gr)%nat).
      { apply nth_error_lt in Ec. lia. }
      specialize (EN i Li). unfold task_done. destruct (t_err t); [reflexivity|].
      destruct (t_todo t); [reflexivity|cbn in L; lia].
Qed.
End OneGroup.


Lemma run_groups_ok o : good_options o -> forall groups don dp scheds,
  ss_groups s = don ++ groups -> holds (fun i => In i (concat don)) dp ->
  (run_groups process as_tuple feed o ns dp groups scheds = Ok None /\ ~ complete groups scheds) \/
  (exists dp', run_groups process as_tuple feed o ns dp groups scheds = Ok (Some dp') /\
     holds (fun i => In i (concat (ss_groups s))) dp') \/
  (exists e, run_groups process as_tuple feed o ns dp groups scheds = Exn e /\ right_error e).
Proof.
  intros HO. induction groups as [|gr groups IH]; intros don dp scheds EG HH; cbn [run_groups].
  - right. left. exists dp. rewrite EG, app_nil_r. auto.
  - assert (GG : good_groups ns (ss_groups s)) by apply HT. destruct GG as (_ & ND & OPS & DEP).
    assert (ND2 := ND). rewrite EG, concat_app in ND2. cbn [concat] in ND2.
    apply nodup_app_iff in ND2. destruct ND2 as (_ & ND3 & DJ). apply nodup_app_iff in ND3. destruct ND3 as (ND4 & _ & _).
    destruct (run_group_ok o HO (fun i => In i (concat don)) dp HH gr) with (sched := hd [] scheds)
      as [(-> & NE)|[(dp' & -> & HH')|(e & -> & R)]].
    + intros i I. assert (IC : In i (concat (ss_groups s))).
      { rewrite EG, concat_app. apply in_or_app. right. cbn. apply in_or_app. left. assumption. }
      apply OPS in IC. destruct IC as (sd & E & Va). eapply op_at_snode; eassumption.
    + assumption.
    + intros i I I'. apply (DJ i I'). apply in_or_app. left. assumption.
    + intros i sd se I E Is m md OA. destruct (DEP don gr groups i sd (fst se) (snd se) EG I E) as [D|(md' & E' & Va)].
      * rewrite <- surjective_pairing. assumption.
      * exact D.
      * exfalso. destruct (node_at g order ns t_same _ _ E') as (n' & nd' & E1 & E2 & Ev & _).
        destruct OA as (F1 & F2 & F3). congruence.
    + left. cbn [bind]. split; [reflexivity|]. intros C. apply NE. specialize (C 0%nat gr eq_refl).
      destruct scheds; exact C.
    + cbn [bind]. destruct (IH (don ++ [gr]) dp' (tl scheds)) as [(-> & NC)|[X|X]].
      * rewrite <- app_assoc. assumption.
      * eapply holds_ext; [|exact HH']. intros i n nd _. cbn. rewrite concat_app, in_app_iff. cbn. rewrite app_nil_r. tauto.
      * left. split; [reflexivity|]. intros C. apply NC. intros j gr' Ej. specialize (C (S j) gr' Ej).
        destruct scheds as [|sc scheds]; [destruct j|]; exact C.
      * right. left. assumption.
      * right. right. assumption.
    + right. right. exists e. auto.
Qed.

Lemma parallel_ok o scheds : good_options o -> ss_groups s <> [] ->
  (run_parallel process as_tuple feed o s scheds = Ok None /\ ~ complete (ss_groups s) scheds) \/
  (exists r, run_parallel process as_tuple feed o s scheds = Ok (Some r) /\ right_answer r) \/
  (exists e, run_parallel process as_tuple feed o s scheds = Exn e /\ right_error e).
Proof.
  intros HO NE. unfold run_parallel. destruct (ss_groups s) as [|g0 gs0] eqn:EG; [congruence|]. rewrite <- EG in *.
  destruct (run_groups_ok o HO (ss_groups s) [] [] scheds eq_refl) as [(-> & NC)|[(dp & -> & HH)|(e & -> & R)]].
  - split; [intros i n nd []|discriminate].
  - left. auto.
  - cbn [bind]. destruct (set_output_ok dp) as [(r & -> & RA)|(-> & RE)].
    + eapply holds_ext; [|exact HH]. intros i n nd (E1 & E2 & Va). split; [auto|]. intros _.
      assert (GG : good_groups ns (ss_groups s)) by apply HT. destruct GG as (_ & _ & OPS & _). apply OPS.
      destruct (forall2_nth _ _ _ t_same _ _ E1) as (sd & Esd & nd' & E2' & Ev & _). exists sd.
      split; [assumption|congruence].
    + right. left. exists r. split; [reflexivity|assumption].
    + right. right. exists CheckFailed. split; [reflexivity|assumption].
  - right. right. exists e. split; [reflexivity|assumption].
Qed.

Lemma answer_unique r r' : right_answer r -> right_answer r' -> r = r'.
Proof.
  intros (_ & F & N) (_ & F' & N').
  assert (E : map snd r = map snd r') by (eapply args_value_fun; eassumption).
  assert (L : length r = length r') by (rewrite <- (map_length snd r), <- (map_length snd r'), E; reflexivity).
  assert (E' : map fst r = map fst r').
  { apply nth_error_ext'. intros i. destruct (nth_error (map fst r) i) as [nm|] eqn:E1.
    - assert (Li : (i < length (map fst r'))%nat) by (rewrite map_length, <- L, <- (map_length fst r); eapply nth_error_lt; eassumption).
      destruct (nth_error_ex _ _ Li) as (nm' & E2). rewrite E2. f_equal.
      destruct (N i nm E1) as [(A1 & A2)|(A1 & A2)]; destruct (N' i nm' E2) as [(B1 & B2)|(B1 & B2)]; try contradiction; [congruence|].
      eapply py_nat_str_unique; eassumption.
    - symmetry. apply nth_error_None. apply nth_error_None in E1. rewrite map_length in *. lia. }
  clear -E E'. revert r' E E'. induction r as [|[k v] r IH]; intros [|[k' v'] r'] E E'; cbn in *; try discriminate; [reflexivity|].
  injection E as -> E. injection E' as -> E'. f_equal. auto.
Qed.
Lemma answer_error r e : right_answer r -> right_error e -> False.
Proof.
  intros (A & F & _) [(n & ND & R)|(-> & en & I & U)].
  - assert (X : exists nd, nth_error g n = Some nd /\ n_var nd = false) by (inversion R; subst; eauto).
    destruct X as (nd & E & Va). destruct (A n nd ND E Va) as (vs & N). eapply raises_no_outputs; eassumption.
  - destruct (forall2_in_l _ _ _ F _ I) as (v & _ & Hv). eapply unfed_no_value; eassumption.
Qed.
End Runs.
