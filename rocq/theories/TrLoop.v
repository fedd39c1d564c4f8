(** The loop that moves the children of a node to another block. *)
From Verif Require Import Base ListAux TrModel TrRing TrFree TrCells TrRoom TrPlace TrTree TrMove.
From Coq Require Import Sorted.
Local Open Scope Z_scope.

Record Loop (t : da) (loc : locs) (mv old : Z) (pf : list Z) (base : Z) (dn ps : list Z) (hole : list Z) (orph : Z) : Prop := {
  p_fi : FI t;
  p_tree : Tree t loc mv old ps hole orph;
  p_links : Links t loc [pf];
  p_at : loc pf = Some mv;
  p_base : base_ (arr t mv) = base;
  p_big : 256 <= base;
  p_old : 256 <= old;
  p_zero : ~ In 0 pf;
  p_sort : StronglySorted Z.lt (dn ++ ps);
  p_lab : forall c, In c (dn ++ ps) -> 0 <= c < 256;
  p_chd : chd t mv = hd 0 (dn ++ ps);
  p_sibs : sibs (sib t) base dn (hd 0 ps);
  p_done : forall c, In c dn -> loc (pf ++ [c]) = Some (Z.lxor base c);
  p_room : forall c, In c ps -> freec t (Z.lxor base c) }.

Lemma big_lxor b c : 256 <= b -> 0 <= c < 256 -> 256 <= Z.lxor b c.
Proof.
  intros B C. destruct (lxor_split b c ltac:(lia) C) as [-> X]. assert (1 <= b / 256) by (apply Z.div_le_lower_bound; lia). lia.
Qed.
Lemma Tree_drop t loc mv old p ps hole orph pf : Tree t loc mv old (p :: ps) hole orph -> loc pf = Some mv -> loc (pf ++ [p]) = None -> Tree t loc mv old ps hole orph.
Proof.
  intros T L N. split; try apply T. intros q c i X. destruct (t_node _ _ _ _ _ _ _ T _ _ _ X) as (A & B & C & j & LJ & D & E). split; [easy|]. split; [easy|]. split; [easy|].
  exists j. split; [easy|]. split; [easy|]. rewrite E. f_equal. unfold bof. destruct (Z.eqb_spec j mv) as [->|]; [|easy]. cbn [andb inP existsb].
  destruct (Z.eqb_spec c p) as [->|]; [|easy]. assert (q = pf) by (eapply (t_inj _ _ _ _ _ _ _ T); eauto). congruence.
Qed.
Lemma Tree_rest t loc mv old hole orph mv' old' : Tree t loc mv old [] hole orph -> Tree t loc mv' old' [] hole orph.
Proof.
  intros T. split; try apply T. intros q c i X. destruct (t_node _ _ _ _ _ _ _ T _ _ _ X) as (A & B & C & j & LJ & D & E). split; [easy|]. split; [easy|]. split; [easy|].
  exists j. split; [easy|]. split; [easy|]. rewrite E. unfold bof. cbn [inP existsb]. now rewrite !andb_false_r.
Qed.

(** taking the cell for the child [p] *)
Lemma take_child t loc mv old pf base dn p ps hole : Loop t loc mv old pf base dn (p :: ps) hole (-1) ->
  exists t1 t2, pop_enode t base p mv = Ok (t1, Z.lxor base p) /\ set_sibling t1 (Z.lxor base p) (hd 0 ps) = Ok t2 /\
    FI t2 /\ size t2 = size t /\ (forall y, freec t2 y <-> freec t y /\ y <> Z.lxor base p) /\
    Tree t2 loc mv old (p :: ps) hole (Z.lxor base p) /\ Links t2 loc [pf] /\
    arr t2 (Z.lxor base p) = Node (if p =? 0 then 0 else -1) mv /\
    (forall y, y <> Z.lxor base p -> ~ freec t y -> arr t2 y = arr t y) /\
    (forall y, sib t2 y = if y =? Z.lxor base p then hd 0 ps else sib t y) /\ (forall y, chd t2 y = chd t y) /\ chd t2 (Z.lxor base p) = 0.
Proof.
  intros P. pose proof (p_tree _ _ _ _ _ _ _ _ _ _ P) as T. pose proof (p_fi _ _ _ _ _ _ _ _ _ _ P) as F. pose proof (p_links _ _ _ _ _ _ _ _ _ _ P) as L.
  pose proof (p_at _ _ _ _ _ _ _ _ _ _ P) as LP. pose proof (p_room _ _ _ _ _ _ _ _ _ _ P p (or_introl eq_refl)) as FC. pose proof (p_big _ _ _ _ _ _ _ _ _ _ P) as BB.
  destruct (t_in _ _ _ _ _ _ _ T _ _ LP) as (MB & MF & _). set (to := Z.lxor base p) in *.
  destruct (pop_at t base p mv F ltac:(lia) ltac:(lia) FC) as (t1 & E1 & K). fold to in E1, K.
  assert (BT : 0 < to < size t) by (destruct FC; lia). pose proof (k_fi _ _ _ _ K) as F1. pose proof (k_sz _ _ _ _ K) as S1.
  assert (CN : 0 <= check (Node (if p =? 0 then 0 else -1) mv)) by (cbn; lia).
  pose proof (take_tree _ _ _ _ _ _ _ _ _ F K FC CN T) as T1.
  assert (ST : settled loc mv (p :: ps) [pf]) by (apply settled_mv; [apply T|easy]).
  pose proof (take_links _ _ _ _ _ _ _ _ _ _ F K FC T ST L) as L1.
  assert (INF : inf t1 to = Info 0 0) by (rewrite (k_i _ _ _ _ K); now apply (n_free _ _ _ L)).
  exists t1, (with_inf t1 (upd (inf t1) to (Info (hd 0 ps) 0))). split; [easy|].
  split; [rewrite set_sibling_ok by (try apply F1; lia); now rewrite INF|]. split; [now apply FI_with_inf|]. split; [easy|].
  split; [intros y; apply (k_free _ _ _ _ K)|]. split; [now apply (Tree_same t1)|].
  split.
  { apply (Links_keep t1 _ loc mv old (p :: ps) hole to [pf] T1 ST L1).
    - intros q i LQ. split; [easy|]. cbn [inf with_inf]. apply upd_ne. now apply (t_in _ _ _ _ _ _ _ T1) in LQ.
    - intros i FI'. cbn [inf with_inf]. rewrite upd_ne; [now apply (n_free _ _ _ L1)|]. intros ->. apply (k_free _ _ _ _ K) in FI'. easy. }
  split; [apply (k_at _ _ _ _ K)|]. split; [apply (k_keep _ _ _ _ K)|]. split; [|split].
  - intros y. unfold sib. cbn [inf with_inf]. unfold upd. destruct (Z.eqb_spec y to); [easy|]. now rewrite (k_i _ _ _ _ K).
  - intros y. unfold chd. cbn [inf with_inf]. unfold upd. destruct (Z.eqb_spec y to) as [->|]; [rewrite <- (k_i _ _ _ _ K), INF; easy|]. now rewrite (k_i _ _ _ _ K).
  - unfold chd. cbn [inf with_inf]. now rewrite upd_eq.
Qed.

(** its node moves into it *)
Lemma shift_ok t loc mv old pf base dn p ps hole : Loop t loc mv old pf base dn (p :: ps) hole (-1) -> loc (pf ++ [p]) = Some (Z.lxor old p) ->
  exists t1 t2 t3, pop_enode t base p mv = Ok (t1, Z.lxor base p) /\ set_sibling t1 (Z.lxor base p) (hd 0 ps) = Ok t2 /\ carry t2 (Z.lxor base p) (Z.lxor old p) p = Ok t3 /\
    Loop t3 (updp loc (pf ++ [p]) (Z.lxor base p)) mv old pf base (dn ++ [p]) ps hole (Z.lxor old p) /\ size t3 = size t /\ ~ freec t3 (Z.lxor old p) /\
    (forall y, ~ freec t y -> base_ (arr t3 y) = base_ (arr t y)) /\ base_ (arr t3 (Z.lxor base p)) = base_ (arr t (Z.lxor old p)).
Proof.
  intros P LC. destruct (take_child _ _ _ _ _ _ _ _ _ _ P) as (t1 & t2 & E1 & E2 & F2 & S2 & FR2 & T2 & L2 & AT & KE & SI & CH & CH0).
  pose proof (p_tree _ _ _ _ _ _ _ _ _ _ P) as T. pose proof (p_at _ _ _ _ _ _ _ _ _ _ P) as LP. pose proof (p_room _ _ _ _ _ _ _ _ _ _ P p (or_introl eq_refl)) as FC.
  destruct (t_in _ _ _ _ _ _ _ T _ _ LP) as (MB & MF & _). destruct (t_in _ _ _ _ _ _ _ T _ _ LC) as (TB & TF & _).
  assert (MT : mv <> Z.lxor base p) by (intros X; apply MF; rewrite X; exact FC).
  assert (TT : Z.lxor old p <> Z.lxor base p) by (intros X; apply TF; rewrite X; exact FC).
  pose proof (sorted_nodup _ (p_sort _ _ _ _ _ _ _ _ _ _ P)) as ND.
  assert (NI : ~ In p ps /\ ~ In p dn). { apply NoDup_remove in ND as [_ ND]. rewrite in_app_iff in ND. tauto. }
  destruct (carry_ok t2 loc mv old p ps hole pf (Z.lxor base p) F2 T2 L2 LP LC) as (t3 & E3 & F3 & S3 & FR3 & T3 & L3 & B3 & SI3 & CH3); try easy.
  { destruct FC. lia. } { rewrite FR2. tauto. } { rewrite KE by easy. now rewrite (p_base _ _ _ _ _ _ _ _ _ _ P). } { now rewrite AT. }
  exists t1, t2, t3. split; [easy|]. split; [easy|]. split; [easy|].
  assert (BB : forall y, ~ freec t y -> base_ (arr t3 y) = base_ (arr t y)).
  { intros y NF. assert (y <> Z.lxor base p) by (intros ->; easy). rewrite B3. destruct (Z.eqb_spec y (Z.lxor base p)); [easy|]. now rewrite KE. }
  split; [|split; [lia|split; [rewrite FR3, FR2; tauto|split; [easy|]]]].
  2:{ rewrite B3, Z.eqb_refl. now rewrite KE. }
  assert (DN : forall c, In c dn -> Z.lxor base c <> Z.lxor base p). { intros c I X. apply lxor_inj_r in X. subst. tauto. }
  split; try apply P; try easy.
  - now rewrite updp_ne by apply snoc_ne.
  - rewrite BB by easy. apply P.
  - rewrite <- app_assoc. apply P.
  - rewrite <- app_assoc. apply P.
  - rewrite CH3, CH, <- app_assoc by easy. apply P.
  - pose proof (p_sibs _ _ _ _ _ _ _ _ _ _ P) as SB. cbn [hd] in SB. apply sibs_app. cbn [sibs hd]. split; [|split; [|easy]].
    + eapply sibs_ext; [|exact SB]. intros c I. rewrite SI3, SI. destruct (Z.eqb_spec (Z.lxor base c) (Z.lxor base p)); [now apply DN in e|easy].
    + rewrite SI3, SI, Z.eqb_refl. easy.
  - intros c I. rewrite in_app_iff in I. destruct (Z.eq_dec c p) as [->|NE]; [apply updp_eq|]. rewrite updp_ne by (intros X; now apply app_inj_tail in X).
    apply P. destruct I as [I|[I|[]]]; congruence.
  - intros c I. rewrite FR3, FR2. split; [apply P; now right|]. intros X. apply lxor_inj_r in X. subst. tauto.
Qed.
(** and the cell it left is given back *)
Lemma give_loop t t' loc mv old pf base dn ps hole e : Loop t loc mv old pf base dn ps hole e -> gives t t' e -> 0 < e -> Loop t' loc mv old pf base dn ps hole (-1).
Proof.
  intros P G E. pose proof (p_tree _ _ _ _ _ _ _ _ _ _ P) as T. pose proof (p_at _ _ _ _ _ _ _ _ _ _ P) as LP. destruct (t_in _ _ _ _ _ _ _ T _ _ LP) as (MB & MF & ME).
  split; try apply P.
  - apply G.
  - now apply (give_tree t t' e).
  - apply (give_links t t' e loc mv old ps hole); try easy; [|apply P]. apply settled_mv; [apply T|easy].
  - rewrite (g_keep _ _ _ G) by easy. apply P.
  - unfold chd. rewrite (g_inf _ _ _ G), upd_ne by easy. apply P.
  - eapply sibs_ext; [|apply P]. intros c I. unfold sib. rewrite (g_inf _ _ _ G), upd_ne; [easy|]. pose proof (p_done _ _ _ _ _ _ _ _ _ _ P c I) as X. now apply (t_in _ _ _ _ _ _ _ T) in X.
  - intros c I. apply (g_free _ _ _ G). left. now apply P.
Qed.
(** the new child, put in its place *)
Lemma newborn_loop t loc mv old pf base dn p ps : Loop t loc mv old pf base dn (p :: ps) pf (-1) -> loc (pf ++ [p]) = None -> pf <> [] -> base < size t ->
  exists t1 t2, pop_enode t base p mv = Ok (t1, Z.lxor base p) /\ set_sibling t1 (Z.lxor base p) (hd 0 ps) = Ok t2 /\
    Loop t2 (updp loc (pf ++ [p]) (Z.lxor base p)) mv old pf base (dn ++ [p]) ps (pf ++ [p]) (-1) /\ size t2 = size t /\
    (forall y, ~ freec t y -> arr t2 y = arr t y) /\ base_ (arr t2 (Z.lxor base p)) = if p =? 0 then 0 else -1.
Proof.
  intros P LN NR BS. destruct (take_child _ _ _ _ _ _ _ _ _ _ P) as (t1 & t2 & E1 & E2 & F2 & S2 & FR2 & T2 & L2 & AT & KE & SI & CH & CH0).
  pose proof (p_tree _ _ _ _ _ _ _ _ _ _ P) as T. pose proof (p_at _ _ _ _ _ _ _ _ _ _ P) as LP. pose proof (p_room _ _ _ _ _ _ _ _ _ _ P p (or_introl eq_refl)) as FC.
  pose proof (p_big _ _ _ _ _ _ _ _ _ _ P) as BB. pose proof (p_base _ _ _ _ _ _ _ _ _ _ P) as BM.
  destruct (t_in _ _ _ _ _ _ _ T _ _ LP) as (MB & MF & _).
  assert (MT : mv <> Z.lxor base p) by (intros X; apply MF; rewrite X; exact FC).
  pose proof (sorted_nodup _ (p_sort _ _ _ _ _ _ _ _ _ _ P)) as ND.
  assert (NI : ~ In p ps /\ ~ In p dn). { apply NoDup_remove in ND as [_ ND]. rewrite in_app_iff in ND. tauto. }
  pose proof (p_lab _ _ _ _ _ _ _ _ _ _ P p ltac:(rewrite in_app_iff; right; now left)) as PL.
  pose proof (Tree_drop _ _ _ _ _ _ _ _ _ T2 LP LN) as T3.
  exists t1, t2. split; [easy|]. split; [easy|].
  assert (DES : forall d, loc ((pf ++ [p]) ++ [d]) = None) by (intros d; eapply loc_prefix; eauto).
  assert (NN : pf ++ [p] <> []) by (intros X; now apply app_eq_nil in X as [_ X]).
  split; [|split; [easy|split; [intros y NF; apply KE; [intros ->; easy|easy]|now rewrite AT]]].
  assert (DN : forall c, In c dn -> Z.lxor base c <> Z.lxor base p). { intros c I X. apply lxor_inj_r in X. subst. tauto. }
  split; try apply P; try easy.
  - apply (newborn_tree t2 t2 loc mv old ps pf pf p mv (Z.lxor base p)); try easy.
    + rewrite FR2. tauto. + rewrite S2. destruct FC. lia. + now left. + apply P. + rewrite KE by easy. rewrite BM. lia.
    + unfold bof. rewrite (proj2 (inP_false p ps)) by tauto. rewrite andb_false_r, KE by easy. now rewrite BM.
  - split.
    + intros q x X ZQ SQ. destruct (list_eq_dec Z.eq_dec q (pf ++ [p])) as [->|NQ].
      * rewrite updp_eq in X. injection X as <-. exists []. split; [constructor| |easy|easy]. intros d. split; [easy|]. intros [X|[X _]]; [|easy].
        rewrite updp_ne in X by (intros Y; symmetry in Y; now apply snoc_ne in Y). now rewrite DES in X.
      * rewrite updp_ne in X by easy. destruct (n_kids _ _ _ L2 _ _ X ZQ SQ) as (K & HK). exists K. split; try apply HK.
        intros c. rewrite (h_in _ _ _ _ _ HK), updp_ne; [easy|]. intros Y. apply app_inj_tail in Y as [-> _]. apply SQ. now left.
    + intros q x. unfold updp. destruct (list_eq_dec Z.eq_dec (q ++ [0]) (pf ++ [p])) as [EQ|]; intros X; [now injection X as <-|]. now apply (n_leaf _ _ _ L2 q).
    + apply L2.
  - now rewrite updp_ne by apply snoc_ne.
  - rewrite KE by easy. apply P.
  - rewrite <- app_assoc. apply P.
  - rewrite <- app_assoc. apply P.
  - rewrite CH, <- app_assoc. apply P.
  - pose proof (p_sibs _ _ _ _ _ _ _ _ _ _ P) as SB. cbn [hd] in SB. apply sibs_app. cbn [sibs hd]. split; [|split; [|easy]].
    + eapply sibs_ext; [|exact SB]. intros c I. rewrite SI. destruct (Z.eqb_spec (Z.lxor base c) (Z.lxor base p)); [now apply DN in e|easy].
    + rewrite SI, Z.eqb_refl. easy.
  - intros c I. rewrite in_app_iff in I. destruct (Z.eq_dec c p) as [->|NE]; [apply updp_eq|]. rewrite updp_ne by (intros X; now apply app_inj_tail in X).
    apply P. destruct I as [I|[I|[]]]; congruence.
  - intros c I. rewrite FR2. split; [apply P; now right|]. intros X. apply lxor_inj_r in X. subst. tauto.
Qed.

(** the values of the keys are kept *)
Definition keeps (t : da) (loc : locs) (t' : da) (loc' : locs) : Prop :=
  forall q i, loc (q ++ [0]) = Some i -> exists i', loc' (q ++ [0]) = Some i' /\ base_ (arr t' i') = base_ (arr t i).
Lemma keeps_refl t loc : keeps t loc t loc.
Proof. intros q i L. eauto. Qed.
Lemma keeps_trans t loc t1 loc1 t2 loc2 : keeps t loc t1 loc1 -> keeps t1 loc1 t2 loc2 -> keeps t loc t2 loc2.
Proof. intros A B q i L. destruct (A q i L) as (j & L1 & E1). destruct (B q j L1) as (k & L2 & E2). exists k. split; [easy|]. congruence. Qed.
Lemma keeps_same t loc t' : (forall q i, loc (q ++ [0]) = Some i -> base_ (arr t' i) = base_ (arr t i)) -> keeps t loc t' loc.
Proof. intros H q i L. exists i. split; [easy|]. now apply (H q). Qed.

(** cedar.h:645-660: the cell given to the new node *)
Lemma newborn_old t loc mv old pf base dn ps pn from bn label i : Loop t loc mv old pf base dn ps pn i -> pn <> pf -> pn <> [] -> ~ In 0 pn ->
  loc pn = Some from -> base_ (arr t from) = bn -> 256 <= bn -> 0 <= label < 256 -> loc (pn ++ [label]) = None -> i = Z.lxor bn label -> 0 < i < size t -> ~ freec t i ->
  exists t1 t2 t3, push_sibling t from (Z.lxor i label) label true = Ok t1 /\ set_child t1 i 0 = Ok t2 /\ set_a t2 i (Node (if label =? 0 then 0 else -1) from) = Ok t3 /\
    Loop t3 (updp loc (pn ++ [label]) i) mv old pf base dn ps (pn ++ [label]) (-1) /\ size t3 = size t /\
    (forall y, y <> i -> arr t3 y = arr t y) /\ base_ (arr t3 i) = if label =? 0 then 0 else -1.
Proof.
  intros P NP NR ZN LN BN BB HL NL EI HI NF. pose proof (p_tree _ _ _ _ _ _ _ _ _ _ P) as T. pose proof (p_at _ _ _ _ _ _ _ _ _ _ P) as LP. pose proof (p_links _ _ _ _ _ _ _ _ _ _ P) as L.
  pose proof (p_fi _ _ _ _ _ _ _ _ _ _ P) as F. pose proof F as (R & es & ls & CE & _).
  assert (NS : ~ In pn [pf]) by (intros [X|[]]; congruence).
  assert (ST : settled loc mv ps [pf]) by (apply settled_mv; [apply T|easy]).
  destruct (t_in _ _ _ _ _ _ _ T _ _ LN) as (FB & FF & FE). destruct (t_in _ _ _ _ _ _ _ T _ _ LP) as (MB & MF & ME).
  assert (FM : from <> mv) by (intros ->; apply NP; eapply (t_inj _ _ _ _ _ _ _ T); eauto).
  destruct (n_kids _ _ _ L _ _ LN ZN NS) as (K & HK).
  destruct (t_base _ _ _ _ _ _ _ T _ _ LN ZN NR) as [(X & _)|(BS & c0 & KX)]; [lia|]. rewrite BN in BS.
  assert (KN : match K with [] => false | _ => true end = true). { destruct K; [|easy]. assert (X : In c0 []) by (apply (h_in _ _ _ _ _ HK); now left). easy. }
  assert (EB : Z.lxor i label = bn) by (rewrite EI; apply lxor_twice).
  assert (LK : ~ In label K). { intros I. apply (h_in _ _ _ _ _ HK) in I as [I|[I _]]; easy. }
  pose proof (h_sibs _ _ _ _ _ HK) as HS. rewrite BN in HS.
  destruct (push_sibling_ok t bn from K label R FB (h_sorted _ _ _ _ _ HK)) as (f & K' & E1 & SK & IK & CH & SB & CE' & SE); try easy.
  { intros x [<-|I]; [rewrite <- EI; split; [easy|lia]|]. pose proof (kid_bounds _ _ _ _ _ _ _ _ _ _ _ _ T ST LN NS HK I) as X. now rewrite BN in X. }
  { apply HK. }
  rewrite KN in E1. rewrite EB, E1.
  exists (with_inf t f). eexists _, _. split; [reflexivity|]. split; [rewrite set_child_ok by (cbn [ready size with_inf]; easy || lia); reflexivity|].
  split; [rewrite set_a_ok by (cbn [size with_inf]; lia); reflexivity|]. cbn [arr inf blk headF headC headO size rej ready with_inf].
  match goal with |- Loop ?x _ _ _ _ _ _ _ _ _ /\ _ => set (t3 := x) end.
  assert (AE : forall y, y <> i -> arr t3 y = arr t y) by (intros y Y; unfold t3; cbn [arr]; now rewrite upd_ne).
  assert (AI : arr t3 i = Node (if label =? 0 then 0 else -1) from) by (unfold t3; cbn [arr]; now rewrite upd_eq).
  assert (CI : 0 <= check (arr t i)) by (unfold freec in NF; lia).
  destruct (FI_ext t t3 F) as [F3 FR]; try easy.
  { intros x FX. apply AE. intros ->. easy. }
  { intros x Hx Hc. destruct (Z.eq_dec x i) as [->|]; [rewrite AI; cbn; lia|now rewrite AE]. }
  { rewrite AE by lia. apply CE. }
  assert (SI3 : forall x, sib t3 x = sibling (f x)). { intros x. unfold sib, t3. cbn [inf]. unfold upd. destruct (Z.eqb_spec x i) as [->|]; easy. }
  assert (CH3 : forall x, x <> i -> chd t3 x = child (f x)). { intros x X. unfold chd, t3. cbn [inf]. now rewrite upd_ne. }
  assert (CH3i : chd t3 i = 0). { unfold chd, t3. cbn [inf]. now rewrite upd_eq. }
  assert (T3 : Tree t3 (updp loc (pn ++ [label]) i) mv old ps (pn ++ [label]) (-1)).
  { apply (newborn_tree t t3 loc mv old ps pn pn label from i); try easy.
    + intros y Y1 _. now apply AE. + now rewrite AE. + left. now rewrite AE. + intros _. rewrite AE by easy. lia.
    + unfold bof. destruct (Z.eqb_spec from mv); [easy|]. cbn [andb]. rewrite AE by easy. now rewrite BN. }
  assert (DISJ : forall c, In c dn -> forall d, In d K' -> Z.lxor base c <> Z.lxor bn d).
  { intros c I d J X. pose proof (p_done _ _ _ _ _ _ _ _ _ _ P c I) as LC. apply IK in J as [J| ->].
    - destruct (kid_pos _ _ _ _ _ _ _ _ _ _ _ _ T ST LN NS HK J) as (q & Q1 & Q2). rewrite BN, <- X in Q1. assert (Y : q = pf ++ [c]) by (eapply (t_inj _ _ _ _ _ _ _ T); eauto).
      destruct Q2 as [Q2|(Q2 & _)]; rewrite Q2 in Y; [now apply app_inj_tail in Y|]. symmetry in Y. now apply app_eq_nil in Y as [_ Y].
    - rewrite <- EI in X. apply (t_in _ _ _ _ _ _ _ T) in LC. tauto. }
  split; [|split; [reflexivity|split; [exact AE|rewrite upd_eq; reflexivity]]]. split; try apply P; try easy.
  - apply (newborn_links t t3 loc mv old ps pn pn label from i [pf] K K'); try easy.
    + intros y Y1 _. now rewrite AE. + left. now rewrite AE. + rewrite AE by easy. now rewrite BN. + intros X. rewrite AI, X. easy.
    + rewrite CH3 by easy. easy. + rewrite AE, BN by easy. eapply sibs_ext; [|exact SB]. intros c _. apply SI3.
    + intros x X1 X2. rewrite CH3 by easy. now apply CE'. + intros x X. rewrite SI3. apply SE. rewrite AE, BN in X by easy. easy.
  - rewrite updp_ne; [easy|]. intros X. rewrite X in LP. congruence.
  - rewrite AE by easy. apply P.
  - rewrite CH3, CE' by (easy || congruence). apply P.
  - eapply sibs_ext; [|apply P]. intros c I. rewrite SI3. apply SE. intros d J. now apply DISJ.
  - intros c I. rewrite updp_ne; [now apply P|]. intros X. apply app_inj_tail in X as [X _]. congruence.
  - intros c I. apply FR. now apply P.
Qed.

Lemma andb_false_eq b : (true && b) = b. Proof. easy. Qed.
(** the children of the node that gets the new one move, cedar.h:625-666 with _flag_ *)
Lemma move_new mv old pf base label from_n : pf <> [] -> 0 <= label < 256 -> forall ps t loc dn hole, Loop t loc mv old pf base dn ps hole (-1) -> base < size t ->
  (forall c, In c ps -> c <> label -> loc (pf ++ [c]) = Some (Z.lxor old c)) ->
  ((In label ps /\ loc (pf ++ [label]) = None /\ hole = pf) \/ (~ In label ps /\ loc (pf ++ [label]) <> None /\ hole = pf ++ [label])) ->
  exists t' loc', move_all t true mv base old (Z.lxor old label) label from_n ps = Ok (t', from_n) /\
    Loop t' loc' mv old pf base (dn ++ ps) [] (pf ++ [label]) (-1) /\ size t' = size t /\
    (forall q, loc' q <> None <-> loc q <> None \/ q = pf ++ [label]) /\ keeps t loc t' loc' /\
    (label = 0 -> loc (pf ++ [0]) = None -> exists i, loc' (pf ++ [0]) = Some i /\ base_ (arr t' i) = 0).
Proof.
  intros NR HL. induction ps as [|p ps IH]; intros t loc dn hole P BS AT H.
  - exists t, loc. split; [easy|]. destruct H as [[[] _]|(_ & H1 & ->)]. rewrite app_nil_r. split; [easy|]. split; [easy|]. split; [|split; [apply keeps_refl|intros ->; easy]].
    intros q. split; [tauto|]. now intros [X| ->].
  - cbn [move_all]. pose proof (p_tree _ _ _ _ _ _ _ _ _ _ P) as T. pose proof (sorted_nodup _ (p_sort _ _ _ _ _ _ _ _ _ _ P)) as ND.
    assert (NI : ~ In p ps). { apply NoDup_remove in ND as [_ ND]. rewrite in_app_iff in ND. tauto. }
    replace (match ps with [] => 0 | q :: _ => q end) with (hd 0 ps) by now destruct ps. rewrite andb_false_eq.
    destruct (Z.eq_dec p label) as [->|NE].
    + destruct H as [(_ & LN & ->)|(X & _)]; [|elim X; now left].
      destruct (newborn_loop _ _ _ _ _ _ _ _ _ P LN NR BS) as (t1 & t2 & -> & E2 & P2 & S2 & KE & B2). cbn [bind]. rewrite E2. cbn [bind]. rewrite Z.eqb_refl.
      destruct (IH t2 _ _ _ P2) as (t' & loc' & E & P' & S' & D' & K' & V'); [lia| | |].
      { intros c I N. rewrite updp_ne; [apply AT; [now right|easy]|]. intros X. now apply app_inj_tail in X. }
      { right. split; [easy|]. split; [now rewrite updp_eq|easy]. }
      exists t', loc'. rewrite <- app_assoc in P'. split; [easy|]. split; [easy|]. split; [lia|]. split; [|split].
      * intros q. rewrite D'. unfold updp. destruct (list_eq_dec Z.eq_dec q (pf ++ [label])) as [->|]; [intuition easy|]. tauto.
      * eapply keeps_trans; [|exact K']. intros q i LQ. exists i. rewrite updp_ne; [|intros X; congruence]. split; [easy|]. rewrite KE; [easy|]. now apply (t_in _ _ _ _ _ _ _ T) in LQ.
      * intros -> _. destruct (K' pf (Z.lxor base 0)) as (i & L1 & L2); [apply updp_eq|]. exists i. split; [easy|]. rewrite L2, B2. easy.
    + assert (LC : loc (pf ++ [p]) = Some (Z.lxor old p)) by (apply AT; [now left|easy]).
      destruct (shift_ok _ _ _ _ _ _ _ _ _ _ P LC) as (t1 & t2 & t3 & -> & E2 & E3 & P3 & S3 & NF3 & B3 & B3'). cbn [bind]. rewrite E2. cbn [bind].
      destruct (Z.eqb_spec (Z.lxor old p) (Z.lxor old label)) as [X|_]; [now apply lxor_inj_r in X|]. rewrite E3. cbn [bind negb andb].
      pose proof (p_lab _ _ _ _ _ _ _ _ _ _ P p ltac:(rewrite in_app_iff; right; now left)) as PL. pose proof (big_lxor old p (p_old _ _ _ _ _ _ _ _ _ _ P) PL) as BO.
      destruct (t_in _ _ _ _ _ _ _ T _ _ LC) as (TB & TF & _).
      destruct (push_enode_ok t3 (Z.lxor old p) (p_fi _ _ _ _ _ _ _ _ _ _ P3)) as (t4 & E4 & G); [lia|easy|]. rewrite E4. cbn [bind].
      pose proof (give_loop _ _ _ _ _ _ _ _ _ _ _ P3 G ltac:(lia)) as P4. pose proof (g_sz _ _ _ G) as S4.
      destruct (IH t4 _ _ _ P4) as (t' & loc' & E & P' & S' & D' & K' & V'); [lia| | |].
      { intros c I N. rewrite updp_ne; [apply AT; [now right|easy]|]. intros X. apply app_inj_tail in X as [_ ->]. easy. }
      { rewrite updp_ne by (intros X; apply app_inj_tail in X as [_ X]; congruence). destruct H as [([X|X] & H)|(X & H)]; [congruence|left; easy|right]. split; [|easy]. intros Y. apply X. now right. }
      exists t', loc'. rewrite <- app_assoc in P'. split; [easy|]. split; [easy|]. split; [lia|]. split; [|split].
      * intros q. rewrite D'. unfold updp. destruct (list_eq_dec Z.eq_dec q (pf ++ [p])) as [->|]; [rewrite LC; intuition easy|]. tauto.
      * eapply keeps_trans; [|exact K']. intros q i LQ. unfold updp. destruct (list_eq_dec Z.eq_dec (q ++ [0]) (pf ++ [p])) as [EQ|NQ].
        -- rewrite EQ, LC in LQ. injection LQ as <-. eexists. split; [reflexivity|]. rewrite (g_keep _ _ _ G); [easy| |].
           ++ intros X. pose proof (p_done _ _ _ _ _ _ _ _ _ _ P3 p ltac:(rewrite in_app_iff; right; now left)) as Y. apply (t_in _ _ _ _ _ _ _ (p_tree _ _ _ _ _ _ _ _ _ _ P3)) in Y. easy.
           ++ pose proof (p_done _ _ _ _ _ _ _ _ _ _ P3 p ltac:(rewrite in_app_iff; right; now left)) as Y. now apply (t_in _ _ _ _ _ _ _ (p_tree _ _ _ _ _ _ _ _ _ _ P3)) in Y.
        -- exists i. split; [easy|]. assert (LQ' : updp loc (pf ++ [p]) (Z.lxor base p) (q ++ [0]) = Some i) by now rewrite updp_ne.
           apply (t_in _ _ _ _ _ _ _ (p_tree _ _ _ _ _ _ _ _ _ _ P3)) in LQ' as (Y1 & Y2 & Y3). rewrite (g_keep _ _ _ G) by easy. apply B3. now apply (t_in _ _ _ _ _ _ _ T) in LQ.
      * intros X Y. apply V'; [easy|]. rewrite updp_ne; [easy|]. intros Z. rewrite Z in Y. congruence.
Qed.

(** the children of the other node move, cedar.h:625-666 without _flag_ *)
Lemma move_old mv old pf base pn bn label lp : pn <> pf -> pn <> [] -> ~ In 0 pn -> 256 <= bn -> 0 <= label < 256 -> Z.lxor old lp = Z.lxor bn label ->
  forall ps t loc dn hole from_n, Loop t loc mv old pf base dn ps hole (-1) -> 
  (forall c, In c ps -> loc (pf ++ [c]) = Some (Z.lxor old c)) -> loc pn = Some from_n -> base_ (arr t from_n) = bn ->
  ((In lp ps /\ loc (pn ++ [label]) = None /\ hole = pn) \/ (~ In lp ps /\ loc (pn ++ [label]) = Some (Z.lxor bn label) /\ hole = pn ++ [label])) ->
  exists t' loc' from_n', move_all t false mv base old (Z.lxor bn label) label from_n ps = Ok (t', from_n') /\
    Loop t' loc' mv old pf base (dn ++ ps) [] (pn ++ [label]) (-1) /\ size t' = size t /\
    loc' pn = Some from_n' /\ loc' (pn ++ [label]) = Some (Z.lxor bn label) /\
    (forall q, loc' q <> None <-> loc q <> None \/ q = pn ++ [label]) /\ keeps t loc t' loc' /\
    (label = 0 -> loc (pn ++ [0]) = None -> base_ (arr t' (Z.lxor bn 0)) = 0).
Proof.
  intros NP NR ZN BB HL EL. induction ps as [|p ps IH]; intros t loc dn hole from_n P AT LN BN H.
  - exists t, loc, from_n. split; [easy|]. destruct H as [[[] _]|(_ & H1 & ->)]. rewrite app_nil_r. split; [easy|]. split; [easy|]. split; [easy|]. split; [easy|].
    split; [|split; [apply keeps_refl|intros ->; congruence]]. intros q. split; [tauto|]. intros [X| ->]; [easy|congruence].
  - cbn [move_all]. pose proof (p_tree _ _ _ _ _ _ _ _ _ _ P) as T. pose proof (sorted_nodup _ (p_sort _ _ _ _ _ _ _ _ _ _ P)) as ND.
    assert (NI : ~ In p ps). { apply NoDup_remove in ND as [_ ND]. rewrite in_app_iff in ND. tauto. }
    replace (match ps with [] => 0 | q :: _ => q end) with (hd 0 ps) by now destruct ps.
    assert (LC : loc (pf ++ [p]) = Some (Z.lxor old p)) by (apply AT; now left).
    destruct (shift_ok _ _ _ _ _ _ _ _ _ _ P LC) as (t1 & t2 & t3 & -> & E2 & E3 & P3 & S3 & NF3 & B3 & B3'). cbn [bind]. rewrite E2. cbn [bind andb negb].
    rewrite E3. cbn [bind]. pose proof (p_tree _ _ _ _ _ _ _ _ _ _ P3) as T3.
    pose proof (p_lab _ _ _ _ _ _ _ _ _ _ P p ltac:(rewrite in_app_iff; right; now left)) as PL. pose proof (big_lxor old p (p_old _ _ _ _ _ _ _ _ _ _ P) PL) as BO.
    destruct (t_in _ _ _ _ _ _ _ T _ _ LC) as (TB & TF & _). set (loc3 := updp loc (pf ++ [p]) (Z.lxor base p)) in *.
    set (fn := if Z.lxor old p =? from_n then Z.lxor base p else from_n).
    assert (LN3 : loc3 pn = Some fn /\ base_ (arr t3 fn) = bn).
    { unfold fn. destruct (Z.eqb_spec (Z.lxor old p) from_n) as [X|X].
      - rewrite <- X in LN. assert (pn = pf ++ [p]) as -> by (eapply (t_inj _ _ _ _ _ _ _ T); eauto). split; [apply updp_eq|]. rewrite B3'. congruence.
      - split; [unfold loc3; rewrite updp_ne; [easy|intros Y; rewrite Y in LN; congruence]|]. rewrite B3; [easy|]. now apply (t_in _ _ _ _ _ _ _ T) in LN. }
    destruct LN3 as [LN3 BN3].
    assert (KP3 : keeps t loc t3 loc3 /\ forall q, loc3 q <> None <-> loc q <> None).
    { split.
      - intros q i LQ. unfold loc3, updp. destruct (list_eq_dec Z.eq_dec (q ++ [0]) (pf ++ [p])) as [EQ|NQ].
        + rewrite EQ, LC in LQ. injection LQ as <-. eauto.
        + exists i. split; [easy|]. apply B3. now apply (t_in _ _ _ _ _ _ _ T) in LQ.
      - intros q. unfold loc3, updp. destruct (list_eq_dec Z.eq_dec q (pf ++ [p])) as [->|]; [rewrite LC; easy|easy]. }
    destruct KP3 as [KP3 DP3].
    assert (NL3 : forall c, loc3 (pn ++ [c]) = loc (pn ++ [c])). { intros c. unfold loc3. rewrite updp_ne; [easy|]. intros X. now apply app_inj_tail in X. }
    assert (AT3 : forall c, In c ps -> loc3 (pf ++ [c]) = Some (Z.lxor old c)).
    { intros c I. unfold loc3. rewrite updp_ne; [apply AT; now right|]. intros X. apply app_inj_tail in X as [_ ->]. easy. }
    rewrite <- EL. destruct (Z.eq_dec p lp) as [->|NE].
    + destruct H as [(_ & LL & ->)|(X & _)]; [|elim X; now left]. rewrite Z.eqb_refl.
      destruct (newborn_old t3 loc3 mv old pf base (dn ++ [lp]) ps pn fn bn label (Z.lxor old lp) P3) as (t4 & t5 & t6 & E4 & E5 & E6 & P6 & S6 & KE & B6); try easy; [now rewrite NL3|lia|].
      rewrite E4. cbn [bind]. rewrite E5. cbn [bind]. rewrite E6. cbn [bind].
      assert (LO : forall q i, loc3 q = Some i -> updp loc3 (pn ++ [label]) (Z.lxor old lp) q = Some i /\ base_ (arr t6 i) = base_ (arr t3 i)).
      { intros q i LQ. split; [rewrite updp_ne; [easy|]; intros ->; rewrite NL3 in LQ; congruence|]. rewrite KE; [easy|]. now apply (t_in _ _ _ _ _ _ _ T3) in LQ. }
      destruct (IH t6 _ _ _ fn P6) as (t' & loc' & fn' & E & P' & S' & L1' & L2' & D' & K' & V').
      { intros c I. apply LO. now apply AT3. } { now apply LO. } { rewrite (proj2 (LO _ _ LN3)). easy. } { right. split; [easy|]. rewrite updp_eq, EL. easy. }
      exists t', loc', fn'. rewrite EL, E. rewrite <- app_assoc in P'. split; [easy|]. split; [easy|]. split; [lia|]. split; [easy|]. split; [easy|]. split; [|split].
      * intros q. rewrite D'. unfold updp. destruct (list_eq_dec Z.eq_dec q (pn ++ [label])) as [->|]; [intuition easy|]. rewrite DP3. tauto.
      * eapply keeps_trans; [exact KP3|]. eapply keeps_trans; [|exact K']. intros q i LQ. exists i. now apply LO.
      * intros -> _. destruct (K' pn (Z.lxor old lp)) as (i & X1 & X2); [apply updp_eq|]. rewrite L2' in X1. injection X1 as <-. rewrite X2, B6. easy.
    + destruct (Z.eqb_spec (Z.lxor old p) (Z.lxor old lp)) as [X|_]; [now apply lxor_inj_r in X|].
      destruct (push_enode_ok t3 (Z.lxor old p) (p_fi _ _ _ _ _ _ _ _ _ _ P3)) as (t4 & E4 & G); [lia|easy|]. rewrite E4. cbn [bind].
      pose proof (give_loop _ _ _ _ _ _ _ _ _ _ _ P3 G ltac:(lia)) as P4. pose proof (g_sz _ _ _ G) as S4.
      assert (LO : forall q i, loc3 q = Some i -> arr t4 i = arr t3 i). { intros q i LQ. apply (t_in _ _ _ _ _ _ _ T3) in LQ. now apply (g_keep _ _ _ G). }
      destruct (IH t4 _ _ _ fn P4) as (t' & loc' & fn' & E & P' & S' & L1' & L2' & D' & K' & V'); try easy.
      { now rewrite (LO _ _ LN3). }
      { rewrite NL3. destruct H as [([X|X] & H)|(X & H)]; [congruence|left; easy|right]. split; [|easy]. intros Y. apply X. now right. }
      exists t', loc', fn'. rewrite EL, E. rewrite <- app_assoc in P'. split; [easy|]. split; [easy|]. split; [lia|]. split; [easy|]. split; [easy|]. split; [|split].
      * intros q. rewrite D', DP3. easy.
      * eapply keeps_trans; [exact KP3|]. eapply keeps_trans; [|exact K']. apply keeps_same. intros q i LQ. now rewrite (LO _ _ LQ).
      * intros X Y. apply V'; [easy|]. now rewrite NL3.
Qed.
