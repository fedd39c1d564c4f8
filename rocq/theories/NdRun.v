(** Every operation and every program of arrays. *)
From Verif Require Import Base ListAux NdSpec NdModel NdAux NdMem NdInv NdProofs NdOps NdFill NdShow NdSet NdJoin.
Local Open Scope Z_scope.

Lemma rel_handle st s w a : rel st s -> holds s w = Some a -> exists p, handle st w = Ok p.
Proof. intros R H. destruct (rel_holds _ _ _ _ R H) as (p & c & _ & Hp & _). eauto. Qed.
Ltac var_arr E R w a H p Hp :=
  unfold with_arr in E; destruct (holds _ w) as [a|] eqn:H; [|easy]; destruct (rel_handle _ _ _ _ R H) as [p Hp].
Ltac var_free E F := unfold with_free in E; destruct (free _ _) eqn:F; [|easy].
Lemma step_ok o st s l : rel st s -> meaning o s = Some l -> good (step o st) s l.
Proof.
  intros R E. pose proof E as E'. destruct o; cbn [step meaning] in *; cbv zeta in *.
  - var_free E F. now apply ok_make.
  - var_free E F. now apply ok_fill.
  - var_free E F. now apply ok_import.
  - var_free E F. var_arr E R w a H p Hp. rewrite Hp. cbn [bind]. injection E as <-. eapply good_alias; eauto. now left.
  - unfold with_arr in E. destruct (holds s v) as [a|] eqn:H; [|easy]. injection E as <-. eapply (good_del st s v a); eauto. now left.
  - var_free E F. var_arr E R w a H p Hp. rewrite Hp. cbn [bind]. unfold unless in E. destruct (nonempty (a_shape a)) eqn:Ne; [|easy]. cbn [negb] in E.
    eapply ok_item; eauto. intros E0. now rewrite E0 in Ne.
  - var_free E F. var_arr E R w a H p Hp. rewrite Hp. cbn [bind]. eapply ok_items; eauto.
  - var_free E F. var_arr E R w a H p Hp. rewrite Hp. cbn [bind]. eapply ok_slice; eauto.
  - var_free E F. var_arr E R w a H p Hp. rewrite Hp. cbn [bind]. eapply ok_transpose; eauto.
  - var_free E F. var_arr E R w a H p Hp. rewrite Hp. cbn [bind].
    destruct (rel_holds _ _ _ _ R H) as (p' & c & _ & Hp' & C & D). assert (p' = p) by congruence. subst p'.
    unfold unless in E. rewrite (cr_sh _ _ _ D) in E. destruct (oversized sh) eqn:Ov; [easy|]. cbn [orb] in E. destruct (uneven _ sh) eqn:Un; [easy|].
    eapply ok_reshape_gen; eauto.
  - var_free E F. var_arr E R w a H p Hp. rewrite Hp. cbn [bind]. eapply ok_squeeze; eauto.
  - var_free E F. var_arr E R w a H p Hp. rewrite Hp. cbn [bind]. eapply ok_unsqueeze; eauto.
  - var_free E F. var_arr E R w a H p Hp. rewrite Hp. cbn [bind]. eapply ok_contiguous; eauto.
  - var_free E F. var_arr E R w a H p Hp. rewrite Hp. cbn [bind]. eapply ok_as_type; eauto.
  - var_free E F. var_arr E R w a H p Hp. rewrite Hp. cbn [bind]. eapply ok_copy_to; eauto.
  - var_free E F. var_arr E R w1 a H p Hp. var_arr E R w2 b H' q Hq. rewrite Hp, Hq. cbn [bind]. now apply (ok_binary st s v w1 w2 a b p q).
  - var_free E F. var_arr E R w a H p Hp. rewrite Hp. cbn [bind]. eapply ok_arith_num; eauto.
  - var_free E F. var_arr E R w a H p Hp. rewrite Hp. cbn [bind]. eapply ok_num_minus; eauto.
  - var_free E F. now apply ok_concat.
  - var_free E F. now apply ok_stack.
  - var_arr E R v a H p Hp. rewrite Hp. cbn [bind]. eapply ok_set_num; eauto.
  - var_arr E R v a H p Hp. var_arr E R w b H' q Hq. rewrite Hp, Hq. cbn [bind]. now apply (ok_set_array st s v a p is w b q).
  - var_arr E R v a H p Hp. rewrite Hp. cbn [bind]. eapply ok_set_list; eauto.
  - var_arr E R v a H p Hp. var_arr E R w b' H' q Hq. rewrite Hp, Hq. cbn [bind]. now apply (ok_set_slice st s v a p b e w b' q).
  - var_arr E R v a H p Hp. rewrite Hp. cbn [bind]. eapply ok_set_slice_list; eauto.
  - var_arr E R w a H p Hp. eapply ok_to_list; eauto.
  - var_arr E R w a H p Hp. eapply ok_shape_of; eauto.
  - var_arr E R w a H p Hp. eapply ok_len_of; eauto.
  - var_arr E R w1 a H p Hp. var_arr E R w2 b H' q Hq. now apply (ok_equal st s w1 w2 a b p q).
Qed.
Lemma init_rel k : rel (init k) (start k).
Proof.
  constructor; cbn [init start m_vars m_heap mem vars conts blks].
  - induction k; cbn [repeat]; constructor; easy.
  - assert (V : forall i, ~ In (Some i) (repeat (@None nat) k)) by (intros i I; apply repeat_spec in I; easy).
    constructor; cbn [conts blks].
    + intros i I. now apply V in I.
    + easy.
    + intros [|i] c C; easy.
    + intros [|i] c C; easy.
    + intros [|i] c p C; easy.
    + intros [|i] c b C; easy.
    + intros [|i] c j d b C; easy.
    + intros [|b] [x X]; easy.
  - constructor.
Qed.
Lemma run_ok : forall os st s, rel st s -> meaningful os s ->
  exists st' s' rs, run os st = Ok (st', rs) /\ behaves os s s' rs /\ rel st' s'.
Proof.
  induction os as [|o os IH]; intros st s R M.
  - exists st, s, []. split; [easy|]. split; [constructor|easy].
  - destruct M as (l & E & M). pose proof (step_ok o st s l R E) as G. cbn [run]. destruct (step o st) as [[st1 r]|e| |]; cbn [good] in G; try easy.
    + destruct G as (y & I & Er & R1). destruct (IH st1 _ R1 (M y I)) as (st' & s' & rs & E1 & B & R').
      exists st', s', (r :: rs). rewrite E1. cbn [bind]. split; [easy|]. split; [|easy]. eapply bh_step; eauto. rewrite <- Er. apply surjective_pairing.
    + destruct (IH st s R (M Raise G)) as (st' & s' & rs & E1 & B & R').
      exists st', s', (Raised :: rs). rewrite E1. cbn [bind]. split; [easy|]. split; [|easy]. eapply bh_step; eauto. easy.
Qed.

(** A live container is held by a variable, or a view of it is. *)
Lemma holder st s : rel st s -> forall n i c, (length (conts (m_heap st)) - i <= n)%nat -> cont_at (m_heap st) i c ->
  exists v j d, nth_error (m_vars st) v = Some (Some j) /\ cont_at (m_heap st) j d /\ blk_of d = blk_of c.
Proof.
  intros R. pose proof (r_inv _ _ R) as V. induction n as [|n IH]; intros i c L C.
  { apply cont_lt in C. lia. }
  pose proof (i_pos _ _ _ V _ _ C) as P. unfold links in P. destruct (Nat.eq_0_gt_0_cases (cnt (is_h i) (m_vars st))) as [Z0|Hp].
  - assert (K : (0 < cnt (is_kid i) (conts (m_heap st)))%nat) by (cbn in P; lia). apply cnt_ex in K as (x & I & Hx).
    destruct x as [d|]; [|easy]. cbn [is_kid] in Hx. destruct (c_owner d) as [|p|] eqn:O; try easy. apply Nat.eqb_eq in Hx. subst p.
    apply In_nth_error in I as [j J]. destruct (i_view _ _ _ V _ _ _ J O) as [Lt (cp & Cp & B)]. assert (cp = c) by (eapply cont_fun; eauto). subst cp.
    destruct (IH j d) as (v & j' & d' & H1 & H2 & H3).
    + pose proof (cont_lt _ _ _ J). lia.
    + exact J.
    + exists v, j', d'. split; [easy|]. split; [easy|]. congruence.
  - apply cnt_ex in Hp as (x & I & Hx). destruct x as [j|]; [|easy]. cbn [is_h] in Hx. apply Nat.eqb_eq in Hx. subst j.
    apply In_nth_error in I as [v Hv]. exists v, i, c. easy.
Qed.
