(** What each step does to the tree. *)
From Verif Require Import Base ListAux TrModel TrRing TrFree TrCells TrRoom TrPlace TrTree.
From Coq Require Import Sorted.
Local Open Scope Z_scope.

Lemma FI_with_inf t f : FI t -> FI (with_inf t f).
Proof. intros F. destruct (FI_ext t (with_inf t f) F) as [X _]; try easy. destruct F as (_ & es & ls & C & _). apply C. Qed.
Lemma Tree_same t t' loc mv old ps hole orph : arr t' = arr t -> size t' = size t -> Tree t loc mv old ps hole orph -> Tree t' loc mv old ps hole orph.
Proof. intros A S [X1 X2 X3 X4 X5 X6 X7]. split; unfold bof, freec; rewrite ?A, ?S; assumption. Qed.

Section Facts.
Variables (t : da) (loc : locs) (mv old : Z) (ps : list Z) (hole : list Z) (orph : Z).
Hypothesis T : Tree t loc mv old ps hole orph.
Lemma loc_root p : loc p = Some 0 -> p = [].
Proof. intros H. apply (t_inj _ _ _ _ _ _ _ T _ _ _ H (t_root _ _ _ _ _ _ _ T)). Qed.
Lemma loc_pos p i : loc p = Some i -> p <> [] -> 0 < i < size t.
Proof. intros H N. destruct (t_in _ _ _ _ _ _ _ T _ _ H) as (B & _). assert (i <> 0) by (intros ->; apply N; now apply loc_root). lia. Qed.
Lemma loc_nonfree p i : loc p = Some i -> p <> [] -> 0 <= check (arr t i).
Proof.
  intros H N. pose proof (loc_pos _ _ H N) as B. destruct (t_in _ _ _ _ _ _ _ T _ _ H) as (_ & F & _). unfold freec in F. lia.
Qed.
Lemma loc_prefix p c : loc p = None -> loc (p ++ [c]) = None.
Proof. intros H. destruct (loc (p ++ [c])) as [i|] eqn:E; [|easy]. apply (t_node _ _ _ _ _ _ _ T) in E as (_ & _ & _ & j & E & _). congruence. Qed.
Lemma loc_label p c : loc (p ++ [c]) <> None -> 0 <= c < 256.
Proof. intros H. destruct (loc (p ++ [c])) as [i|] eqn:E; [|easy]. now apply (t_node _ _ _ _ _ _ _ T) in E. Qed.
End Facts.

(** the children of a path are where its base says *)
Definition settled (loc : locs) (mv : Z) (ps : list Z) (sk : list (list Z)) : Prop := ps = [] \/ forall p, loc p = Some mv -> In p sk.
Lemma kid_at t loc mv old ps hole orph sk p j c i : Tree t loc mv old ps hole orph -> settled loc mv ps sk -> loc p = Some j -> ~ In p sk ->
  loc (p ++ [c]) = Some i -> i = Z.lxor (base_ (arr t j)) c.
Proof.
  intros T ST L NS LC. destruct (t_node _ _ _ _ _ _ _ T _ _ _ LC) as (_ & _ & _ & j' & L' & _ & E). rewrite L in L'. injection L' as <-. rewrite E. f_equal. unfold bof.
  destruct ST as [->|ST]; [now rewrite andb_false_r|]. destruct (Z.eqb_spec j mv) as [->|]; [|easy]. elim NS. now apply ST.
Qed.
Lemma kid_pos t loc mv old ps hole orph sk p j c K : Tree t loc mv old ps hole orph -> settled loc mv ps sk -> loc p = Some j -> ~ In p sk ->
  kidsof t loc p j K -> In c K -> exists q, loc q = Some (Z.lxor (base_ (arr t j)) c) /\ (q = p ++ [c] \/ (q = [] /\ p = [] /\ c = 0)).
Proof.
  intros T ST L NS H I. apply (h_in _ _ _ _ _ H) in I as [I|[-> ->]].
  - destruct (loc (p ++ [c])) as [i|] eqn:E; [|easy]. exists (p ++ [c]). split; [|now left]. rewrite E. f_equal. eapply kid_at; eauto.
  - exists []. split; [|now right]. rewrite (t_root _ _ _ _ _ _ _ T) in L. injection L as <-. rewrite (t_rbase _ _ _ _ _ _ _ T). apply (t_root _ _ _ _ _ _ _ T).
Qed.
Lemma kid_bounds t loc mv old ps hole orph sk p j c K : Tree t loc mv old ps hole orph -> settled loc mv ps sk -> loc p = Some j -> ~ In p sk ->
  kidsof t loc p j K -> In c K -> 0 <= c < 256 /\ 0 <= Z.lxor (base_ (arr t j)) c < size t.
Proof.
  intros T ST L NS H I. destruct (kid_pos _ _ _ _ _ _ _ _ _ _ _ _ T ST L NS H I) as (q & LQ & _). split; [|now apply (t_in _ _ _ _ _ _ _ T) in LQ].
  apply (h_in _ _ _ _ _ H) in I as [I|[_ ->]]; [|lia]. eapply loc_label; eauto.
Qed.

(** nothing located changed *)
Lemma Links_keep t t' loc mv old ps hole orph sk : Tree t loc mv old ps hole orph -> settled loc mv ps sk -> Links t loc sk ->
  (forall p i, loc p = Some i -> base_ (arr t' i) = base_ (arr t i) /\ inf t' i = inf t i) ->
  (forall i, freec t' i -> inf t' i = Info 0 0) -> Links t' loc sk.
Proof.
  intros T ST [A B C] KE FR. split; [|intros p i L; unfold chd; rewrite (proj2 (KE _ _ L)); now apply (B p)|easy].
  intros p j L Z NS. destruct (A p j L Z NS) as (K & HK). exists K. destruct (KE p j L) as [KE1 KE2]. split.
  - apply HK.
  - apply HK.
  - unfold chd. rewrite KE2. apply HK.
  - rewrite KE1. eapply sibs_ext; [|apply HK]. intros c I. destruct (kid_pos _ _ _ _ _ _ _ _ _ _ _ _ T ST L NS HK I) as (q & LQ & _). unfold sib. now rewrite (proj2 (KE _ _ LQ)).
Qed.

(** ** A cell is taken, or given back *)
Lemma take_tree t t' e n loc mv old ps hole : FI t -> takes t t' e n -> freec t e -> 0 <= check n -> Tree t loc mv old ps hole (-1) -> Tree t' loc mv old ps hole e.
Proof.
  intros F K FE N T. assert (Z0 : ~ freec t 0) by (unfold freec; lia). assert (E0 : 0 < e) by (destruct FE; lia).
  assert (KE : forall p i, loc p = Some i -> arr t' i = arr t i /\ i <> e).
  { intros p i L. destruct (t_in _ _ _ _ _ _ _ T _ _ L) as (B & NF & _). assert (i <> e) by (intros ->; easy). split; [|easy]. now apply (k_keep _ _ _ _ K). }
  split.
  - apply T.
  - rewrite (k_keep _ _ _ _ K) by (lia || easy). apply T.
  - apply T.
  - intros i Hi Hc. rewrite (k_sz _ _ _ _ K) in Hi. destruct (Z.eq_dec i e) as [->|NE]; [now left|].
    assert (NF : ~ freec t i). { intros X. assert (Y : freec t' i) by (apply (k_free _ _ _ _ K); easy). destruct Y. lia. }
    rewrite (k_keep _ _ _ _ K) in Hc by easy. destruct (t_all _ _ _ _ _ _ _ T i Hi Hc) as [->|X]; [lia|now right].
  - intros p i L. destruct (t_in _ _ _ _ _ _ _ T _ _ L) as (B & NF & _). rewrite (k_sz _ _ _ _ K). split; [easy|]. split; [|now apply (KE p)].
    rewrite (k_free _ _ _ _ K). tauto.
  - intros p c i L. destruct (t_node _ _ _ _ _ _ _ T _ _ _ L) as (A & B & C & j & L' & D & E). split; [easy|]. split; [easy|]. split; [easy|]. exists j. split; [easy|].
    rewrite (proj1 (KE _ _ L)). split; [easy|]. unfold bof in *. now rewrite (proj1 (KE _ _ L')).
  - intros p j L. rewrite (proj1 (KE _ _ L)), (k_sz _ _ _ _ K). now apply (t_base _ _ _ _ _ _ _ T).
Qed.
Lemma take_links t t' e n loc mv old ps hole sk : FI t -> takes t t' e n -> freec t e -> Tree t loc mv old ps hole (-1) -> settled loc mv ps sk -> Links t loc sk -> Links t' loc sk.
Proof.
  intros F K FE T ST L. apply (Links_keep t t' loc mv old ps hole (-1) sk T ST L).
  - intros p i LP. destruct (t_in _ _ _ _ _ _ _ T _ _ LP) as (B & NF & _). rewrite (k_i _ _ _ _ K), (k_keep _ _ _ _ K); [easy| |easy]. intros ->. easy.
  - intros i X. rewrite (k_i _ _ _ _ K). apply (n_free _ _ _ L). now apply (k_free _ _ _ _ K) in X.
Qed.
Lemma give_tree t t' e loc mv old ps hole : gives t t' e -> 0 < e -> Tree t loc mv old ps hole e -> Tree t' loc mv old ps hole (-1).
Proof.
  intros K E0 T. assert (Z0 : ~ freec t 0) by (unfold freec; lia).
  assert (KE : forall p i, loc p = Some i -> arr t' i = arr t i /\ i <> e).
  { intros p i L. destruct (t_in _ _ _ _ _ _ _ T _ _ L) as (B & NF & NE). split; [|easy]. now apply (g_keep _ _ _ K). }
  split.
  - apply T.
  - rewrite (g_keep _ _ _ K) by (lia || easy). apply T.
  - apply T.
  - intros i Hi Hc. rewrite (g_sz _ _ _ K) in Hi. assert (NF : ~ freec t' i) by (intros [_ X]; lia). rewrite (g_free _ _ _ K) in NF.
    right. rewrite (g_keep _ _ _ K) in Hc by tauto. destruct (t_all _ _ _ _ _ _ _ T i Hi Hc) as [->|X]; [tauto|easy].
  - intros p i L. destruct (t_in _ _ _ _ _ _ _ T _ _ L) as (B & NF & NE). rewrite (g_sz _ _ _ K). split; [easy|]. split; [|lia]. rewrite (g_free _ _ _ K). tauto.
  - intros p c i L. destruct (t_node _ _ _ _ _ _ _ T _ _ _ L) as (A & B & C & j & L' & D & E). split; [easy|]. split; [easy|]. split; [easy|]. exists j. split; [easy|].
    rewrite (proj1 (KE _ _ L)). split; [easy|]. unfold bof in *. now rewrite (proj1 (KE _ _ L')).
  - intros p j L. rewrite (proj1 (KE _ _ L)), (g_sz _ _ _ K). now apply (t_base _ _ _ _ _ _ _ T).
Qed.
Lemma give_links t t' e loc mv old ps hole sk : gives t t' e -> Tree t loc mv old ps hole e -> settled loc mv ps sk -> Links t loc sk -> Links t' loc sk.
Proof.
  intros K T ST L. apply (Links_keep t t' loc mv old ps hole e sk T ST L).
  - intros p i LP. destruct (t_in _ _ _ _ _ _ _ T _ _ LP) as (B & NF & NE). rewrite (g_inf _ _ _ K), (g_keep _ _ _ K), upd_ne by easy. easy.
  - intros i X. rewrite (g_inf _ _ _ K). unfold upd. destruct (Z.eqb_spec i e); [easy|]. apply (n_free _ _ _ L). apply (g_free _ _ _ K) in X. tauto.
Qed.
Lemma grow_tree t t' loc mv old ps hole orph : grow t t' -> Tree t loc mv old ps hole orph -> Tree t' loc mv old ps hole orph.
Proof.
  intros G T. pose proof (w_size _ _ G) as WS. destruct (t_in _ _ _ _ _ _ _ T _ _ (t_root _ _ _ _ _ _ _ T)) as ([_ P0] & _).
  assert (KE : forall p i, loc p = Some i -> arr t' i = arr t i). { intros p i L. apply (w_arr _ _ G). now apply (t_in _ _ _ _ _ _ _ T) in L. }
  split.
  - apply T.
  - rewrite (w_arr _ _ G) by easy. apply T.
  - apply T.
  - intros i Hi Hc. destruct (Z.lt_ge_cases i (size t)) as [L|Ge].
    + rewrite (w_arr _ _ G) in Hc by easy. apply (t_all _ _ _ _ _ _ _ T i); [lia|easy].
    + assert (X : freec t' i) by (apply (w_free _ _ G); lia). destruct X. lia.
  - intros p i L. destruct (t_in _ _ _ _ _ _ _ T _ _ L) as (B & NF & NE). split; [lia|]. split; [|easy]. rewrite (w_free _ _ G). lia || intuition lia.
  - intros p c i L. destruct (t_node _ _ _ _ _ _ _ T _ _ _ L) as (A & B & C & j & L' & D & E). split; [easy|]. split; [easy|]. split; [easy|]. exists j. split; [easy|].
    rewrite (KE _ _ L). split; [easy|]. unfold bof in *. now rewrite (KE _ _ L').
  - intros p j L Z N. rewrite (KE _ _ L). destruct (t_base _ _ _ _ _ _ _ T p j L Z N) as [X|X]; [now left|right; intuition lia].
Qed.
Lemma grow_links t t' loc mv old ps hole orph sk : grow t t' -> Tree t loc mv old ps hole orph -> settled loc mv ps sk -> Links t loc sk -> Links t' loc sk.
Proof.
  intros G T ST L. apply (Links_keep t t' loc mv old ps hole orph sk T ST L).
  - intros p i LP. apply (t_in _ _ _ _ _ _ _ T) in LP. rewrite (w_arr _ _ G), (w_inf _ _ G) by lia. easy.
  - intros i X. apply (w_free _ _ G) in X as [X|X]; [|now apply (w_new _ _ G)]. rewrite (w_inf _ _ G); [now apply (n_free _ _ _ L)|]. destruct X. lia.
Qed.

(** ** A new node *)
Lemma newborn_tree t t' loc mv old ps hole p c j i : Tree t loc mv old ps hole i -> ~ freec t i -> 0 < i < size t ->
  size t' = size t -> (forall y, y <> i -> y <> j -> arr t' y = arr t y) -> arr t' i = Node (if c =? 0 then 0 else -1) j ->
  check (arr t' j) = check (arr t j) -> (base_ (arr t' j) = base_ (arr t j) \/ (p <> [] /\ forall d, loc (p ++ [d]) = None)) ->
  loc p = Some j -> ~ In 0 p -> 0 <= c < 256 -> (p = [] -> c <> 0) -> loc (p ++ [c]) = None ->
  (p <> [] -> 256 <= base_ (arr t' j) < size t) -> i = Z.lxor (bof t' mv old ps j c) c -> hole = p ->
  Tree t' (updp loc (p ++ [c]) i) mv old ps (p ++ [c]) (-1).
Proof.
  intros T NF HI SZ KE AI CJ BJ LP Z0 HC PC LN HB EI ->. destruct (t_in _ _ _ _ _ _ _ T _ _ LP) as (Bj & NFj & NEj).
  assert (J0 : 0 <= j) by lia.
  assert (KC : forall y, y <> i -> check (arr t' y) = check (arr t y)). { intros y Y. destruct (Z.eq_dec y j) as [->|]; [easy|]. now rewrite KE. }
  assert (FR : forall y, freec t' y <-> freec t y).
  { intros y. unfold freec. rewrite SZ. destruct (Z.eq_dec y i) as [->|NE]; [|now rewrite KC]. rewrite AI. cbn. unfold freec in NF. lia. }
  assert (DES : forall d, loc ((p ++ [c]) ++ [d]) = None) by (intros d; eapply loc_prefix; eauto).
  split.
  - rewrite updp_ne; [apply T|]. intros X. now apply (app_cons_not_nil p [] c).
  - destruct (Z.eq_dec 0 j) as [<-|NE].
    + destruct BJ as [->|[NP _]]; [apply T|]. elim NP. eapply loc_root; eauto.
    + rewrite KE by lia. apply T.
  - intros q1 q2 x. unfold updp. destruct (list_eq_dec Z.eq_dec q1 (p ++ [c])) as [->|], (list_eq_dec Z.eq_dec q2 (p ++ [c])) as [->|]; intros X Y; try easy.
    + injection X as <-. apply (t_in _ _ _ _ _ _ _ T) in Y. easy.
    + injection Y as <-. apply (t_in _ _ _ _ _ _ _ T) in X. easy.
    + now apply (t_inj _ _ _ _ _ _ _ T _ _ x).
  - intros x Hx Hc. right. destruct (Z.eq_dec x i) as [->|NE]; [exists (p ++ [c]); apply updp_eq|]. rewrite SZ in Hx. rewrite KC in Hc by easy.
    destruct (t_all _ _ _ _ _ _ _ T x Hx Hc) as [->|[q L]]; [easy|]. exists q. rewrite updp_ne; [easy|]. intros ->. congruence.
  - intros q x. unfold updp. rewrite FR, SZ. destruct (list_eq_dec Z.eq_dec q (p ++ [c])) as [->|].
    + intros X. injection X as <-. split; [lia|]. split; [easy|lia].
    + intros X. destruct (t_in _ _ _ _ _ _ _ T _ _ X) as (B & F & _). split; [easy|]. split; [easy|lia].
  - intros q d x L. destruct (list_eq_dec Z.eq_dec (q ++ [d]) (p ++ [c])) as [E|NE].
    + rewrite E, updp_eq in L. injection L as <-. apply app_inj_tail in E as [-> ->]. split; [easy|]. split; [easy|]. split; [easy|]. exists j.
      rewrite updp_ne by apply snoc_ne. split; [easy|]. rewrite AI. split; [easy|]. easy.
    + rewrite updp_ne in L by easy. destruct (t_node _ _ _ _ _ _ _ T _ _ _ L) as (A & B & C & j' & L' & D & E). split; [easy|]. split; [easy|]. split; [easy|]. exists j'.
      assert (NQ : q <> p ++ [c]) by (intros ->; congruence). rewrite updp_ne by easy. split; [easy|].
      destruct (t_in _ _ _ _ _ _ _ T _ _ L) as (_ & _ & NX). rewrite KC by easy. split; [easy|].
      destruct (t_in _ _ _ _ _ _ _ T _ _ L') as (_ & _ & NJ'). rewrite E. f_equal. unfold bof. destruct ((j' =? mv) && inP d ps); [easy|].
      destruct (Z.eq_dec j' j) as [->|]; [|now rewrite KE]. destruct BJ as [BJ|[_ BJ]]; [easy|].
      assert (q = p) by (eapply (t_inj _ _ _ _ _ _ _ T); eauto). subst q. rewrite BJ in L. easy.
  - intros q x L ZQ NQ. rewrite SZ. destruct (list_eq_dec Z.eq_dec q (p ++ [c])) as [->|NE].
    + left. rewrite updp_eq in L. injection L as <-. rewrite AI. cbn. destruct (Z.eqb_spec c 0) as [->|]; [elim ZQ; rewrite in_app_iff; right; now left|]. split; [easy|]. split; [easy|].
      intros d. rewrite updp_ne; [apply DES|]. intros X. symmetry in X. now apply snoc_ne in X.
    + rewrite updp_ne in L by easy. right. destruct (list_eq_dec Z.eq_dec q p) as [->|NP].
      * rewrite LP in L. injection L as <-. split; [now apply HB|]. exists c. now rewrite updp_eq.
      * assert (x <> j) by (intros ->; apply NP; eapply (t_inj _ _ _ _ _ _ _ T); eauto). destruct (t_in _ _ _ _ _ _ _ T _ _ L) as (_ & _ & NX). rewrite KE by easy.
        destruct (t_base _ _ _ _ _ _ _ T q x L ZQ NQ) as [(_ & X & _)|(X & d & Y)]; [easy|]. split; [easy|]. exists d. unfold updp. destruct (list_eq_dec Z.eq_dec (q ++ [d]) (p ++ [c])); easy.
Qed.

Lemma newborn_links t t' loc mv old ps hole p c j i sk K K' : Tree t loc mv old ps hole i -> settled loc mv ps sk -> Links t loc sk ->
  ~ freec t i -> (forall y, freec t' y <-> freec t y) ->
  (forall y, y <> i -> y <> j -> base_ (arr t' y) = base_ (arr t y)) ->
  loc p = Some j -> ~ In 0 p -> ~ In p sk -> loc (p ++ [c]) = None -> (base_ (arr t' j) = base_ (arr t j) \/ (p <> [] /\ forall d, loc (p ++ [d]) = None)) ->
  i = Z.lxor (base_ (arr t' j)) c -> (c =? 0 = false -> base_ (arr t' i) = -1) ->
  kidsof t loc p j K -> StronglySorted Z.lt K' -> (forall d, In d K' <-> In d K \/ d = c) -> chd t' j = hd 0 K' -> sibs (sib t') (base_ (arr t' j)) K' 0 ->
  (forall x, x <> j -> x <> i -> chd t' x = chd t x) -> chd t' i = 0 ->
  (forall x, (forall d, In d K' -> x <> Z.lxor (base_ (arr t' j)) d) -> sib t' x = sib t x) ->
  Links t' (updp loc (p ++ [c]) i) sk.
Proof.
  intros T ST L NF FR BE LP Z0 NS LN BJ EI BI HK SK IK CH SB CE CI SE.
  destruct (t_in _ _ _ _ _ _ _ T _ _ LP) as (Bj & NFj & NEj).
  assert (DES : forall d, loc ((p ++ [c]) ++ [d]) = None) by (intros d; eapply loc_prefix; eauto).
  (* where the changed siblings are *)
  assert (POS : forall d, In d K' -> Z.lxor (base_ (arr t' j)) d = i \/ exists q, loc q = Some (Z.lxor (base_ (arr t' j)) d) /\ (q = p ++ [d] \/ (q = [] /\ p = []))).
  { intros d I. apply IK in I as [I| ->]; [|left; now symmetry]. right. destruct BJ as [BJ|BJ].
    - rewrite BJ. destruct (kid_pos _ _ _ _ _ _ _ _ _ _ _ _ T ST LP NS HK I) as (q & Q1 & Q2). exists q. split; [easy|]. intuition.
    - exfalso. apply (h_in _ _ _ _ _ HK) in I as [I|[E _]]; [|now apply BJ]. now rewrite (proj2 BJ) in I. }
  assert (OLD : forall q x, loc q = Some x -> (forall d, q <> p ++ [d]) -> ~ (q = [] /\ p = []) -> sib t' x = sib t x).
  { intros q x LQ N1 N2. apply SE. intros d I X. destruct (POS d I) as [Y|(q' & Y & Z)].
    - destruct (t_in _ _ _ _ _ _ _ T _ _ LQ) as (_ & _ & W). congruence.
    - rewrite <- X in Y. assert (q' = q) by (eapply (t_inj _ _ _ _ _ _ _ T); eauto). subst q'. destruct Z as [Z|Z]; [now apply (N1 d)|now apply N2]. }
  split.
  - intros q x LQ ZQ SQ. destruct (list_eq_dec Z.eq_dec q (p ++ [c])) as [->|NQ].
    + rewrite updp_eq in LQ. injection LQ as <-. exists []. split; [constructor| |easy|easy]. intros d. split; [easy|]. intros [X|[X _]].
      * rewrite updp_ne in X; [now rewrite DES in X|]. intros E. symmetry in E. now apply snoc_ne in E.
      * now apply app_eq_nil in X as [_ X].
    + rewrite updp_ne in LQ by easy. destruct (t_in _ _ _ _ _ _ _ T _ _ LQ) as (_ & _ & NX). destruct (list_eq_dec Z.eq_dec q p) as [->|NP].
      * rewrite LP in LQ. injection LQ as <-. exists K'. split; [easy| |easy|easy]. intros d. rewrite IK, (h_in _ _ _ _ _ HK).
        destruct (Z.eq_dec d c) as [->|ND]; [rewrite updp_eq; intuition easy|]. rewrite updp_ne; [intuition easy|]. intros E. now apply app_inj_tail in E.
      * destruct (n_kids _ _ _ L q x LQ ZQ SQ) as (Q & HQ). exists Q. assert (NJ : x <> j) by (intros ->; apply NP; eapply (t_inj _ _ _ _ _ _ _ T); eauto). split.
        -- apply HQ.
        -- intros d. rewrite (h_in _ _ _ _ _ HQ), updp_ne; [easy|]. intros E. now apply app_inj_tail in E as [E _].
        -- rewrite CE by easy. apply HQ.
        -- rewrite BE by easy. eapply sibs_ext; [|apply HQ]. intros d I. destruct (kid_pos _ _ _ _ _ _ _ _ _ _ _ _ T ST LQ SQ HQ I) as (r & R1 & R2).
           apply (OLD r); [easy| |].
           ++ intros d' E. destruct R2 as [R2|(R2 & _)]; [|subst r; symmetry in E; now apply app_eq_nil in E as [_ E]]. rewrite R2 in E. now apply app_inj_tail in E as [E _].
           ++ intros [E1 E2]. destruct R2 as [R2|(R2 & R3 & _)]; [|congruence]. rewrite E1 in R2. symmetry in R2. now apply app_eq_nil in R2 as [_ R2].
  - intros q x. unfold updp. destruct (list_eq_dec Z.eq_dec (q ++ [0]) (p ++ [c])) as [E|NQ]; intros LQ.
    + now injection LQ as <-.
    + destruct (t_in _ _ _ _ _ _ _ T _ _ LQ) as (_ & _ & NX). rewrite CE; [now apply (n_leaf _ _ _ L q)| |easy]. intros ->.
      assert (E : q ++ [0] = p) by (eapply (t_inj _ _ _ _ _ _ _ T); eauto). apply Z0. rewrite <- E. rewrite in_app_iff. right. now left.
  - intros x FX. apply FR in FX. pose proof (n_free _ _ _ L x FX) as E. assert (x <> i) by (intros ->; easy). assert (x <> j) by (intros ->; easy).
    assert (S1 : sib t' x = sib t x).
    { apply SE. intros d I X. destruct (POS d I) as [Y|(q' & Y & _)]; [congruence|]. rewrite <- X in Y. now apply (t_in _ _ _ _ _ _ _ T) in Y. }
    assert (S2 : chd t' x = chd t x) by now apply CE. unfold sib, chd in S1, S2. rewrite E in S1, S2. destruct (inf t' x). cbn in *. now subst.
Qed.

(** ** A child moves *)
Definition oz_dec (a b : option Z) : {a = b} + {a <> b}.
Proof. decide equality. apply Z.eq_dec. Defined.
Lemma settled_mv loc mv ps pf : (forall p q i, loc p = Some i -> loc q = Some i -> p = q) -> loc pf = Some mv -> settled loc mv ps [pf].
Proof. intros INJ L. right. intros p P. left. now apply (INJ pf p mv). Qed.

Lemma carry_run t loc mv old p ps hole pf to : ready t = true -> Tree t loc mv old (p :: ps) hole to -> Links t loc [pf] -> loc pf = Some mv ->
  loc (pf ++ [p]) = Some (Z.lxor old p) -> 0 < to < size t ->
  exists f g, carry t to (Z.lxor old p) p = Ok (with_arr (with_inf t g) f) /\
    (forall x, sibling (g x) = sib t x) /\ (forall x, x <> to -> child (g x) = chd t x) /\
    child (g to) = (if (0 <? base_ (arr t (Z.lxor old p))) && negb (p =? 0) then chd t (Z.lxor old p) else chd t to) /\
    (forall x, base_ (f x) = if x =? to then base_ (arr t (Z.lxor old p)) else base_ (arr t x)) /\
    (forall d x, loc ((pf ++ [p]) ++ [d]) = Some x -> check (f x) = to) /\
    (forall x, (forall d, loc ((pf ++ [p]) ++ [d]) <> Some x) -> check (f x) = check (arr t x)).
Proof.
  intros R T L LF LC HT. set (to' := Z.lxor old p) in *. destruct (t_node _ _ _ _ _ _ _ T _ _ _ LC) as (HP & ZF & PC & j & LJ & CK & _). rewrite LF in LJ. injection LJ as <-.
  destruct (t_in _ _ _ _ _ _ _ T _ _ LC) as (B' & NF' & NE'). assert (NN : pf ++ [p] <> []) by (intros X; now apply app_eq_nil in X as [_ X]).
  unfold carry. rewrite get_a_ok by easy. cbn [bind]. rewrite set_base_ok by lia. cbn [bind].
  destruct (Z.ltb_spec 0 (base_ (arr t to'))) as [BP|BP]; cbn [andb]; [destruct (Z.eqb_spec p 0) as [P0|P0]; cbn [negb]|].
  1, 3: (assert (NK : forall d, loc ((pf ++ [p]) ++ [d]) = None);
    [intros d; destruct (loc ((pf ++ [p]) ++ [d])) as [x|] eqn:E; [exfalso|easy]|]).
  - apply (t_node _ _ _ _ _ _ _ T) in E as (_ & Z & _). apply Z. rewrite in_app_iff. right. now left.
  - eexists (upd (arr t) to _), (inf t). split; [reflexivity|]. split; [easy|]. split; [easy|]. split; [easy|]. split; [intros x; unfold upd; now destruct (Z.eqb_spec x to)|].
    split; [intros d x; now rewrite NK|]. intros x _. unfold upd. destruct (Z.eqb_spec x to) as [->|]; easy.
  - destruct (t_base _ _ _ _ _ _ _ T _ _ LC) as [(_ & _ & X)|(X & _)]; [|easy|now rewrite X in E|lia]. now apply (t_node _ _ _ _ _ _ _ T) in E.
  - eexists (upd (arr t) to _), (inf t). split; [reflexivity|]. split; [easy|]. split; [easy|]. split; [easy|]. split; [intros x; unfold upd; now destruct (Z.eqb_spec x to)|].
    split; [intros d x; now rewrite NK|]. intros x _. unfold upd. destruct (Z.eqb_spec x to) as [->|]; easy.
  - assert (Z0 : ~ In 0 (pf ++ [p])). { rewrite in_app_iff. cbn. intuition. }
    destruct (t_base _ _ _ _ _ _ _ T _ _ LC Z0 NN) as [(X & _)|(_ & c0 & KX)]; [lia|].
    assert (NS : ~ In (pf ++ [p]) [pf]). { intros [X|[]]. now apply snoc_ne in X. }
    assert (ST : settled loc mv (p :: ps) [pf]) by (apply settled_mv; [apply T|easy]).
    destruct (n_kids _ _ _ L _ _ LC Z0 NS) as (K & HK).
    assert (NEK : K <> []). { intros ->. assert (X : In c0 []) by (apply (h_in _ _ _ _ _ HK); now left). easy. }
    rewrite get_i_ok by easy. cbn [bind inf]. rewrite set_child_ok by (cbn [ready size]; easy || lia). cbn [bind]. cbn [arr inf blk headF headC headO size rej ready].
    match goal with |- context [adopt 257 ?x _ _ _] => set (t2 := x) end.
    destruct K as [|c K]; [easy|]. pose proof (h_child _ _ _ _ _ HK) as HC. unfold chd in HC. cbn in HC. rewrite HC.
    destruct (adopt_ok (base_ (arr t to')) to K c 257 t2) as (f & E & F1 & F2); try easy.
    + apply HK.
    + intros x I. destruct (kid_bounds _ _ _ _ _ _ _ _ _ _ _ _ T ST LC NS HK I). split; [lia|easy].
    + eapply sibs_ext; [|apply HK]. intros d I. unfold sib, t2. cbn [inf]. unfold upd. destruct (Z.eqb_spec (Z.lxor (base_ (arr t to')) d) to) as [->|]; easy.
    + assert (LK : (length (c :: K) <= 256)%nat). { apply labels_length; [apply HK|]. intros x I. now destruct (kid_bounds _ _ _ _ _ _ _ _ _ _ _ _ T ST LC NS HK I). } cbn [length] in LK. lia.
    + rewrite E. eexists f, (inf t2). split; [reflexivity|]. 
      assert (MAP : forall x, In x (map (Z.lxor (base_ (arr t to'))) (c :: K)) <-> exists d, loc ((pf ++ [p]) ++ [d]) = Some x).
      { intros x. rewrite in_map_iff. split.
        - intros (d & <- & I). destruct (kid_pos _ _ _ _ _ _ _ _ _ _ _ _ T ST LC NS HK I) as (q & Q1 & [->|(_ & Q2 & _)]); [eauto|easy].
        - intros (d & X). exists d. split; [symmetry; eapply kid_at; eauto|]. apply (h_in _ _ _ _ _ HK). left. congruence. }
      split; [intros x; unfold t2, sib, upd; cbn [inf]; destruct (Z.eqb_spec x to) as [->|]; easy|].
      split; [intros x NX; unfold t2; cbn [inf]; now rewrite upd_ne|]. split; [unfold t2, chd; cbn [inf]; rewrite upd_eq; easy|].
      assert (DEC : forall x, In x (map (Z.lxor (base_ (arr t to'))) (c :: K)) \/ ~ In x (map (Z.lxor (base_ (arr t to'))) (c :: K))) by (intros x; destruct (in_dec Z.eq_dec x (map (Z.lxor (base_ (arr t to'))) (c :: K))); tauto).
      split; [|split].
      * intros x. assert (base_ (f x) = base_ (arr t2 x)) as ->. { destruct (DEC x) as [I|I]; [now rewrite F1|now rewrite F2]. }
        unfold t2; cbn [arr]; unfold upd. now destruct (Z.eqb_spec x to).
      * intros d x X. rewrite F1; [easy|]. apply MAP. eauto.
      * intros x X. rewrite F2; [|rewrite MAP; intros (d & Y); now apply (X d)]. unfold t2; cbn [arr]; unfold upd. now destruct (Z.eqb_spec x to) as [->|].
Qed.
Lemma carry_ok t loc mv old p ps hole pf to : FI t -> Tree t loc mv old (p :: ps) hole to -> Links t loc [pf] -> loc pf = Some mv ->
  loc (pf ++ [p]) = Some (Z.lxor old p) -> ~ In p ps -> 0 < to < size t -> ~ freec t to -> to = Z.lxor (base_ (arr t mv)) p -> check (arr t to) = mv -> chd t to = 0 ->
  exists t', carry t to (Z.lxor old p) p = Ok t' /\ FI t' /\ size t' = size t /\ (forall y, freec t' y <-> freec t y) /\
    Tree t' (updp loc (pf ++ [p]) to) mv old ps hole (Z.lxor old p) /\ Links t' (updp loc (pf ++ [p]) to) [pf] /\
    (forall y, base_ (arr t' y) = if y =? to then base_ (arr t (Z.lxor old p)) else base_ (arr t y)) /\
    (forall y, sib t' y = sib t y) /\ (forall y, y <> to -> chd t' y = chd t y).
Proof.
  intros F T L LF LC NP HT NFT ET CT HCH. pose proof F as (R & es & ls & CE & _).
  destruct (carry_run _ _ _ _ _ _ _ _ _ R T L LF LC HT) as (f & g & E & G1 & G2 & G3 & F1 & F2 & F3). set (to' := Z.lxor old p) in *.
  destruct (t_node _ _ _ _ _ _ _ T _ _ _ LC) as (HP & ZF & PC & j & LJ & CK & _). rewrite LF in LJ. injection LJ as <-.
  destruct (t_in _ _ _ _ _ _ _ T _ _ LC) as (B' & NF' & NE'). assert (NN : pf ++ [p] <> []) by (intros X; now apply app_eq_nil in X as [_ X]).
  assert (ST : settled loc mv (p :: ps) [pf]) by (apply settled_mv; [apply T|easy]).
  assert (MT : mv <> to') by (intros X; rewrite <- X in LC; apply (snoc_ne pf p); eapply (t_inj _ _ _ _ _ _ _ T); eauto).
  assert (MO : mv <> to) by now apply (t_in _ _ _ _ _ _ _ T) in LF.
  assert (M0 : 0 <= mv) by (apply (t_in _ _ _ _ _ _ _ T) in LF; lia).
  set (t' := with_arr (with_inf t g) f) in *. exists t'. split; [easy|].
  assert (KID : forall d x, loc ((pf ++ [p]) ++ [d]) = Some x -> 0 < x < size t /\ ~ freec t x /\ x <> to).
  { intros d x X. split; [eapply loc_pos; eauto; intros Y; now apply app_eq_nil in Y as [_ Y]|]. now apply (t_in _ _ _ _ _ _ _ T) in X. }
  assert (KD : forall x, (exists d, loc ((pf ++ [p]) ++ [d]) = Some x) \/ forall d, loc ((pf ++ [p]) ++ [d]) <> Some x).
  { intros x. destruct (in_dec oz_dec (Some x) (map (fun d => loc ((pf ++ [p]) ++ [d])) (zseq 0 256))) as [I|I]; rewrite in_map_iff in I.
    - destruct I as (d & I & _). left. eauto.
    - right. intros d X. apply I. exists d. split; [easy|]. apply in_zseq. apply (t_node _ _ _ _ _ _ _ T) in X as (X & _). lia. }
  assert (FRE : forall x, freec t x -> f x = arr t x).
  { intros x FX. assert (x <> to) by (intros ->; easy). assert (base_ (f x) = base_ (arr t x)) by (rewrite F1; now destruct (Z.eqb_spec x to)).
    assert (check (f x) = check (arr t x)) by (apply F3; intros d X; apply KID in X; easy). destruct (f x), (arr t x). cbn in *. now subst. }
  destruct (FI_ext t t' F) as [F' FR]; try easy.
  { intros x Hx Hc. unfold t'. cbn [arr with_arr]. destruct (KD x) as [(d & X)|X]; [rewrite (F2 d) by easy; lia|now rewrite F3]. }
  { unfold t'. cbn [arr with_arr]. rewrite F3; [apply CE|]. intros d X. apply KID in X. lia. }
  split; [easy|]. split; [easy|]. split; [easy|].
  assert (LOCN : forall q, updp loc (pf ++ [p]) to q = None <-> loc q = None). { intros q. unfold updp. destruct (list_eq_dec Z.eq_dec q (pf ++ [p])) as [->|]; [rewrite LC; easy|easy]. }
  split; [|split].
  - split.
    + rewrite updp_ne by (now intros X; symmetry in X). apply T.
    + change (arr t') with f. rewrite F1. destruct (Z.eqb_spec 0 to); [lia|]. apply T.
    + intros q1 q2 x. unfold updp. destruct (list_eq_dec Z.eq_dec q1 (pf ++ [p])) as [->|], (list_eq_dec Z.eq_dec q2 (pf ++ [p])) as [->|]; intros X Y; try easy.
      * injection X as <-. apply (t_in _ _ _ _ _ _ _ T) in Y. easy.
      * injection Y as <-. apply (t_in _ _ _ _ _ _ _ T) in X. easy.
      * now apply (t_inj _ _ _ _ _ _ _ T _ _ x).
    + intros x Hx Hc. destruct (Z.eq_dec x to') as [->|N1]; [now left|right]. destruct (Z.eq_dec x to) as [->|N2]; [exists (pf ++ [p]); apply updp_eq|].
      assert (NF : ~ freec t x) by (rewrite <- FR; unfold freec; lia). change (size t') with (size t) in Hx.
      destruct (t_all _ _ _ _ _ _ _ T x) as [|[q Q]]; [easy|unfold freec in NF; lia|easy|]. exists q. rewrite updp_ne; [easy|]. intros ->. congruence.
    + intros q x. unfold updp. rewrite FR. change (size t') with (size t). destruct (list_eq_dec Z.eq_dec q (pf ++ [p])) as [->|NQ]; intros X.
      * injection X as <-. split; [lia|]. split; [easy|]. congruence.
      * destruct (t_in _ _ _ _ _ _ _ T _ _ X) as (B & C & _). split; [easy|]. split; [easy|]. intros ->. apply NQ. eapply (t_inj _ _ _ _ _ _ _ T); eauto.
    + intros q d x X. destruct (list_eq_dec Z.eq_dec (q ++ [d]) (pf ++ [p])) as [EQ|NQ].
      * rewrite EQ, updp_eq in X. injection X as <-. apply app_inj_tail in EQ as [-> ->]. split; [easy|]. split; [easy|]. split; [easy|]. exists mv. rewrite updp_ne by apply snoc_ne.
        split; [easy|]. change (arr t') with f. split; [rewrite F3; [easy|intros d Y; now apply KID in Y]|]. unfold bof. change (arr t') with f.
        rewrite (proj2 (inP_false p ps) NP), andb_false_r, F1. destruct (Z.eqb_spec mv to); easy.
      * rewrite updp_ne in X by easy. destruct (t_node _ _ _ _ _ _ _ T _ _ _ X) as (A & B & C & j & LJ & D & EE). split; [easy|]. split; [easy|]. split; [easy|].
        change (arr t') with f. destruct (list_eq_dec Z.eq_dec q (pf ++ [p])) as [->|NQ'].
        -- exists to. rewrite updp_eq. split; [easy|]. split; [now apply (F2 d)|]. rewrite LC in LJ. injection LJ as <-. rewrite EE. unfold bof.
           change (arr t') with f. destruct (Z.eqb_spec to' mv); [congruence|]. destruct (Z.eqb_spec to mv); [congruence|]. cbn [andb]. rewrite F1, Z.eqb_refl. easy.
        -- exists j. rewrite updp_ne by easy. split; [easy|]. split.
           ++ rewrite F3; [easy|]. intros d' Y. apply NQ'. assert (Y2 : (pf ++ [p]) ++ [d'] = q ++ [d]) by (eapply (t_inj _ _ _ _ _ _ _ T); eauto). now apply app_inj_tail in Y2.
           ++ rewrite EE. f_equal. unfold bof. change (arr t') with f. rewrite F1. assert (j <> to) by (now apply (t_in _ _ _ _ _ _ _ T) in LJ). destruct (Z.eqb_spec j to); [easy|].
              destruct (Z.eqb_spec j mv) as [->|]; [|easy]. assert (q = pf) by (eapply (t_inj _ _ _ _ _ _ _ T); eauto). subst q.
              cbn [inP existsb andb]. destruct (Z.eqb_spec d p) as [->|]; [easy|]. easy.
    + intros q x X ZQ NQ. change (arr t') with f. change (size t') with (size t). destruct (list_eq_dec Z.eq_dec q (pf ++ [p])) as [->|NQ'].
      * rewrite updp_eq in X. injection X as <-. rewrite F1, Z.eqb_refl.
        destruct (t_base _ _ _ _ _ _ _ T _ _ LC ZQ NQ) as [(X1 & X2 & X3)|(X1 & d & X2)]; [left|right].
        -- split; [easy|]. split; [easy|]. intros d. apply LOCN, X3.
        -- split; [easy|]. exists d. now rewrite LOCN.
      * rewrite updp_ne in X by easy. rewrite F1. assert (x <> to) by (now apply (t_in _ _ _ _ _ _ _ T) in X). destruct (Z.eqb_spec x to); [easy|].
        destruct (t_base _ _ _ _ _ _ _ T _ _ X ZQ NQ) as [(X1 & X2 & X3)|(X1 & d & X2)]; [left|right].
        -- split; [easy|]. split; [easy|]. intros d. apply LOCN, X3.
        -- split; [easy|]. exists d. now rewrite LOCN.
  - split.
    + intros q x X ZQ SQ. destruct (list_eq_dec Z.eq_dec q (pf ++ [p])) as [->|NQ'].
      * rewrite updp_eq in X. injection X as <-. destruct (n_kids _ _ _ L _ _ LC ZQ SQ) as (K & HK). exists K. split.
        -- apply HK.
        -- intros c. rewrite LOCN. apply HK.
        -- unfold chd, t'. cbn [inf with_arr with_inf]. rewrite G3. assert (P0 : p <> 0) by (intros ->; apply ZQ; rewrite in_app_iff; right; now left).
           destruct (Z.eqb_spec p 0); [easy|]. cbn [negb]. rewrite andb_true_r. destruct (Z.ltb_spec 0 (base_ (arr t to'))); [apply HK|]. rewrite HCH.
           destruct (t_base _ _ _ _ _ _ _ T _ _ LC ZQ NN) as [(X1 & X2 & X3)|(X1 & _)]; [|lia].
           destruct K as [|c K]; [easy|]. assert (IC : In c (c :: K)) by now left. apply (h_in _ _ _ _ _ HK) in IC as [IC|[IC _]]; [now rewrite X3 in IC|easy].
        -- change (arr t') with f. rewrite F1, Z.eqb_refl. eapply sibs_ext; [|apply HK]. intros c _. unfold sib, t'. cbn [inf with_arr with_inf]. apply G1.
      * rewrite updp_ne in X by easy. destruct (n_kids _ _ _ L _ _ X ZQ SQ) as (K & HK). assert (x <> to) by (now apply (t_in _ _ _ _ _ _ _ T) in X). exists K. split.
        -- apply HK.
        -- intros c. rewrite LOCN. apply HK.
        -- unfold chd, t'. cbn [inf with_arr with_inf]. rewrite G2 by easy. apply HK.
        -- change (arr t') with f. rewrite F1. destruct (Z.eqb_spec x to); [easy|]. eapply sibs_ext; [|apply HK]. intros c _. unfold sib, t'. cbn [inf with_arr with_inf]. apply G1.
    + intros q x. unfold updp, chd, t'. cbn [inf with_arr with_inf]. destruct (list_eq_dec Z.eq_dec (q ++ [0]) (pf ++ [p])) as [EQ|]; intros X.
      * injection X as <-. apply app_inj_tail in EQ as [_ <-]. rewrite G3. cbn [Z.eqb negb]. now rewrite andb_false_r.
      * rewrite G2; [now apply (n_leaf _ _ _ L q)|]. now apply (t_in _ _ _ _ _ _ _ T) in X.
    + intros x FX. apply FR in FX. pose proof (n_free _ _ _ L x FX) as EX. unfold t'. cbn [inf with_arr with_inf]. assert (x <> to) by (intros ->; easy).
      specialize (G1 x). specialize (G2 x H). unfold sib, chd in G1, G2. rewrite EX in *. destruct (g x). cbn in *. now subst.
  - split; [exact F1|]. split; [exact G1|exact G2].
Qed.
