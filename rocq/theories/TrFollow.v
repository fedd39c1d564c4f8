(** One step of an insertion: the path gets its child, whatever has to move. *)
From Verif Require Import Base ListAux TrModel TrRing TrFree TrCells TrRoom TrPlace TrTree TrMove TrLoop.
From Coq Require Import Sorted.
Local Open Scope Z_scope.

Definition Good (t : da) (loc : locs) (hole : list Z) : Prop := FI t /\ Tree t loc 0 0 [] hole (-1) /\ Links t loc [].

Lemma start_loop t t3 loc mv pf base ks hole : FI t3 -> Tree t loc 0 0 [] hole (-1) -> Links t loc [] -> loc pf = Some mv -> pf <> [] -> ~ In 0 pf ->
  256 <= base_ (arr t mv) -> StronglySorted Z.lt ks -> (forall c, In c ks -> 0 <= c < 256) -> (forall c, loc (pf ++ [c]) <> None -> In c ks) ->
  256 <= base < size t -> (forall c, In c ks -> freec t (Z.lxor base c)) ->
  arr t3 = upd (arr t) mv (Node base (check (arr t mv))) -> size t3 = size t -> (forall y, y <> mv -> inf t3 y = inf t y) -> sib t3 mv = sib t mv -> chd t3 mv = hd 0 ks ->
  Loop t3 loc mv (base_ (arr t mv)) pf base [] ks hole (-1).
Proof.
  intros F T L LP NR ZP OB SK LK IK BB RM AE SZ IE SM CM. destruct (t_in _ _ _ _ _ _ _ T _ _ LP) as (MB & MF & _).
  assert (NE : forall y, y <> mv -> arr t3 y = arr t y) by (intros y Y; now rewrite AE, upd_ne).
  assert (EM : arr t3 mv = Node base (check (arr t mv))) by now rewrite AE, upd_eq.
  assert (CK : forall y, check (arr t3 y) = check (arr t y)). { intros y. destruct (Z.eq_dec y mv) as [->|]; [now rewrite EM|now rewrite NE]. }
  assert (FR : forall y, freec t3 y <-> freec t y) by (intros y; unfold freec; now rewrite SZ, CK).
  assert (SI : forall y, sib t3 y = sib t y). { intros y. destruct (Z.eq_dec y mv) as [->|]; [easy|]. unfold sib. now rewrite IE. }
  assert (M0 : mv <> 0) by (intros ->; apply NR; eapply loc_root; eauto).
  split; try easy.
  - split.
    + apply T.
    + rewrite NE by congruence. apply T.
    + apply T.
    + rewrite SZ. intros i I. rewrite CK. now apply T.
    + intros q i LQ. rewrite FR, SZ. now apply (t_in _ _ _ _ _ _ _ T) in LQ.
    + intros q c i LQ. destruct (t_node _ _ _ _ _ _ _ T _ _ _ LQ) as (A & B & C & j & LJ & D & E). split; [easy|]. split; [easy|]. split; [easy|]. exists j. split; [easy|]. rewrite CK. split; [easy|].
      rewrite E. f_equal. unfold bof. cbn [inP existsb]. rewrite andb_false_r. destruct (Z.eqb_spec j mv) as [->|]; [|cbn [andb]; now rewrite NE].
      assert (q = pf) by (eapply (t_inj _ _ _ _ _ _ _ T); eauto). subst q. assert (I : inP c ks = true) by (apply inP_true, IK; congruence). now rewrite I.
    + intros q j LQ ZQ NQ. rewrite SZ. destruct (Z.eq_dec j mv) as [->|NJ].
      * right. assert (q = pf) by (eapply (t_inj _ _ _ _ _ _ _ T); eauto). subst q. rewrite EM. split; [easy|].
        destruct (t_base _ _ _ _ _ _ _ T _ _ LQ ZQ NQ) as [(X & _)|(_ & X)]; [lia|easy].
      * rewrite NE by easy. now apply T.
  - split.
    + intros q j LQ ZQ NQ. assert (NJ : j <> mv). { intros ->. apply NQ. left. eapply (t_inj _ _ _ _ _ _ _ T); eauto. }
      destruct (n_kids _ _ _ L q j LQ ZQ ltac:(easy)) as (K & HK). exists K. split; try apply HK.
      * unfold chd. rewrite IE by easy. apply HK.
      * rewrite NE by easy. eapply sibs_ext; [|apply HK]. intros c _. apply SI.
    + intros q i LQ. unfold chd. rewrite IE; [now apply (n_leaf _ _ _ L q)|]. intros ->. assert (X : q ++ [0] = pf) by (eapply (t_inj _ _ _ _ _ _ _ T); eauto).
      apply ZP. rewrite <- X, in_app_iff. right. now left.
    + intros i FX. apply FR in FX. rewrite IE; [now apply (n_free _ _ _ L)|]. intros ->. easy.
  - now rewrite EM.
  - intros c I. apply FR. now apply RM.
Qed.
Lemma finish_loop t loc mv old pf base ks hole : Loop t loc mv old pf base ks [] hole (-1) -> pf <> [] -> (forall c, loc (pf ++ [c]) <> None <-> In c ks) -> Good t loc hole.
Proof.
  intros P NR IK. split; [apply P|]. pose proof (p_tree _ _ _ _ _ _ _ _ _ _ P) as T. split; [now apply (Tree_rest t loc mv old)|].
  pose proof (p_links _ _ _ _ _ _ _ _ _ _ P) as L. split; try apply L. intros q j LQ ZQ _. destruct (list_eq_dec Z.eq_dec pf q) as [<-|NE].
  - rewrite (p_at _ _ _ _ _ _ _ _ _ _ P) in LQ. injection LQ as <-. exists ks. pose proof (p_sort _ _ _ _ _ _ _ _ _ _ P) as A. pose proof (p_chd _ _ _ _ _ _ _ _ _ _ P) as B.
    rewrite app_nil_r in A, B. split; [easy| |easy|].
    + intros c. rewrite IK. tauto.
    + rewrite (p_base _ _ _ _ _ _ _ _ _ _ P). apply (p_sibs _ _ _ _ _ _ _ _ _ _ P).
  - apply (n_kids _ _ _ L q j LQ ZQ). intros [X|[]]. easy.
Qed.

Lemma FI_set_base t i b : FI t -> ~ freec t i -> FI (Da (upd (arr t) i (Node b (check (arr t i)))) (inf t) (blk t) (headF t) (headC t) (headO t) (size t) (rej t) (ready t)).
Proof.
  intros F NF. assert (CK : forall y, check (upd (arr t) i (Node b (check (arr t i))) y) = check (arr t y)) by (intros y; unfold upd; now destruct (Z.eqb_spec y i) as [->|]).
  match goal with |- FI ?x => destruct (FI_ext t x F) as [X _]; try easy end.
  - intros x FX. cbn [arr]. apply upd_ne. intros ->. easy.
  - intros x _ H. cbn [arr]. now rewrite CK.
  - cbn [arr]. rewrite CK. destruct F as (_ & es & ls & C & _). apply C.
Qed.
(** the least of a sorted list *)
Lemma sorted_head x K L : StronglySorted Z.lt K -> StronglySorted Z.lt L -> K <> [] -> (forall c, In c L <-> In c K \/ c = x) -> hd 0 L <> x -> hd 0 L = hd 0 K.
Proof.
  intros SK SL NK H N. destruct K as [|k K]; [easy|]. destruct L as [|l L]; [assert (X : In k []) by (apply H; left; now left); easy|]. cbn in *.
  inversion SK as [|? ? _ FK]; subst. inversion SL as [|? ? _ FL]; subst. rewrite Forall_forall in *.
  destruct (proj1 (H l) (or_introl eq_refl)) as [[E|I]|E]; [easy| |easy]. destruct (proj2 (H k) (or_introl (or_introl eq_refl))) as [E|J]; [easy|].
  specialize (FK _ I). specialize (FL _ J). lia.
Qed.

Definition followed (t : da) (loc : locs) (p : list Z) (label : Z) (t' : da) (from to : Z) : Prop :=
  exists loc', Good t' loc' (p ++ [label]) /\ loc' p = Some from /\ loc' (p ++ [label]) = Some to /\
    (forall q, loc' q <> None <-> loc q <> None \/ q = p ++ [label]) /\ keeps t loc t' loc' /\
    (label = 0 -> loc (p ++ [0]) = None -> base_ (arr t' to) = 0).

Lemma base_big t loc hole p j c : Good t loc hole -> loc p = Some j -> loc (p ++ [c]) <> None -> p <> [] -> 256 <= base_ (arr t j) < size t.
Proof.
  intros (F & T & L) LP LC NR. destruct (loc (p ++ [c])) as [i|] eqn:E; [|easy]. destruct (t_node _ _ _ _ _ _ _ T _ _ _ E) as (_ & ZP & _).
  destruct (t_base _ _ _ _ _ _ _ T _ _ LP ZP NR) as [(_ & _ & X)|(X & _)]; [now rewrite X in E|easy].
Qed.
Lemma find_room t first cs : FI t -> 0 <= first < 256 -> (forall c, In c cs -> 0 <= c < 256) ->
  exists t' e, match cs with [] => find_place t | _ => find_place_for t first cs end = Ok (t', e) /\ grow t t' /\ FI t' /\ room t' e first cs.
Proof.
  intros F HF HC. destruct cs as [|c cs]; [|now apply find_place_for_ok]. destruct (find_place_ok t F) as (t' & e & E & G & F' & FC & B). exists t', e. split; [easy|]. split; [easy|]. split; [easy|].
  split; [easy|]. intros c [<-|[]]. now rewrite lxor_twice.
Qed.
Lemma lxor_mem t b c : FI t -> 0 <= b < size t -> 0 <= c < 256 -> 0 <= Z.lxor b c < size t.
Proof.
  intros (_ & es & ls & C & _) B H. pose proof (c_size _ _ C) as S. split; [apply lxor_ge0; easy|]. rewrite S. apply lxor_lt; [easy|easy|lia].
Qed.

Lemma resolve_ok t loc p from label : Good t loc p -> loc p = Some from -> ~ In 0 p -> 0 <= label < 256 -> (p = [] -> label <> 0) -> loc (p ++ [label]) = None ->
  0 <= base_ (arr t from) -> 0 <= check (arr t (Z.lxor (base_ (arr t from)) label)) ->
  exists t' from' to, resolve t from (base_ (arr t from)) label = Ok (t', from', to) /\ followed t loc p label t' from' to.
Proof.
  intros G LP ZP HL PL LN B0 C0. pose proof G as (F & T & L). pose proof F as (R & es & ls & CE & _). set (bn := base_ (arr t from)) in *. set (to := Z.lxor bn label) in *.
  destruct (t_in _ _ _ _ _ _ _ T _ _ LP) as (FB & FF & _).
  (* where the two nodes are *)
  assert (PB : p = [] /\ bn = 0 /\ from = 0 \/ p <> [] /\ 256 <= bn < size t /\ exists c, loc (p ++ [c]) <> None).
  { destruct (list_eq_dec Z.eq_dec p []) as [->|NR].
    - left. rewrite (t_root _ _ _ _ _ _ _ T) in LP. injection LP as <-. split; [easy|]. split; [apply T|easy].
    - right. split; [easy|]. destruct (t_base _ _ _ _ _ _ _ T _ _ LP ZP NR) as [(X & _)|X]; [unfold bn in B0; lia|easy]. }
  pose proof (c_size _ _ CE) as CS. pose proof (c_pos _ _ CE) as CP.
  assert (BS : 0 <= bn < size t) by (destruct PB as [(_ & -> & _)|(_ & X & _)]; lia).
  pose proof (lxor_mem t bn label F BS HL) as TB. fold to in TB.
  assert (T0 : 0 < to). { unfold to. destruct PB as [(X & -> & _)|(_ & X & _)]; [rewrite Z.lxor_0_l; specialize (PL X); lia|]. pose proof (big_lxor bn label ltac:(lia) HL). lia. }
  destruct (t_all _ _ _ _ _ _ _ T to ltac:(lia) C0) as [X|[q LQ]]; [lia|].
  assert (NQ : q <> []). { intros ->. rewrite (t_root _ _ _ _ _ _ _ T) in LQ. injection LQ. lia. }
  destruct (exists_last NQ) as (pp & lp & ->). destruct (t_node _ _ _ _ _ _ _ T _ _ _ LQ) as (HLP & ZPP & PPL & fp & LPP & CK & ET).
  unfold bof in ET. cbn [inP existsb] in ET. rewrite andb_false_r in ET. set (bp := base_ (arr t fp)) in *.
  assert (NPP : pp <> p). { intros ->. rewrite LP in LPP. injection LPP as <-. fold bn in bp. unfold bp in ET. fold bn in ET. unfold to in ET. apply lxor_inj_r in ET. rewrite <- ET, LN in LQ. discriminate. }
  assert (NFP : fp <> from). { intros ->. apply NPP. eapply (t_inj _ _ _ _ _ _ _ T); eauto. }
  assert (NR : p <> []).
  { intros ->. destruct PB as [(_ & Y & _)|(Y & _)]; [|easy]. assert (X : 256 <= bp < size t) by (apply (base_big t loc _ pp fp lp G LPP); [rewrite LQ; discriminate|easy]).
    pose proof (big_lxor bp lp ltac:(lia) HLP) as Z. rewrite <- ET in Z. unfold to in Z. rewrite Y, Z.lxor_0_l in Z. lia. }
  destruct PB as [(X & _)|(_ & BN & c1 & K1)]; [easy|].
  assert (NRP : pp <> []).
  { intros ->. rewrite (t_root _ _ _ _ _ _ _ T) in LPP. injection LPP as <-. unfold bp in ET. rewrite (t_rbase _ _ _ _ _ _ _ T), Z.lxor_0_l in ET.
    pose proof (big_lxor bn label ltac:(lia) HL) as Z. fold to in Z. lia. }
  assert (BP : 256 <= bp < size t) by (apply (base_big t loc _ pp fp lp G LPP); [rewrite LQ; discriminate|easy]).
  destruct (t_in _ _ _ _ _ _ _ T _ _ LPP) as (FPB & FPF & _).
  assert (ST' : settled loc 0 [] []) by now left.
  destruct (n_kids _ _ _ L _ _ LP ZP ltac:(easy)) as (Kn & HN). destruct (n_kids _ _ _ L _ _ LPP ZPP ltac:(easy)) as (Kp & HP).
  assert (InN : forall c, In c Kn <-> loc (p ++ [c]) <> None) by (intros c; rewrite (h_in _ _ _ _ _ HN); tauto).
  assert (InP : forall c, In c Kp <-> loc (pp ++ [c]) <> None) by (intros c; rewrite (h_in _ _ _ _ _ HP); tauto).
  assert (Kn0 : Kn <> []) by (intros ->; now apply InN in K1). assert (Kp0 : Kp <> []) by (intros ->; assert (X : In lp []) by (apply InP; congruence); easy).
  assert (BdN : forall x, In x Kn -> 0 <= x < 256 /\ 0 <= Z.lxor bn x < size t) by (intros x; apply (kid_bounds _ _ _ _ _ _ _ _ _ _ _ _ T ST' LP ltac:(easy) HN)).
  assert (BdP : forall x, In x Kp -> 0 <= x < 256 /\ 0 <= Z.lxor bp x < size t) by (intros x; apply (kid_bounds _ _ _ _ _ _ _ _ _ _ _ _ T ST' LPP ltac:(easy) HP)).
  assert (AtP : forall x, In x Kp -> loc (pp ++ [x]) = Some (Z.lxor bp x)).
  { intros x I. apply InP in I. destruct (loc (pp ++ [x])) as [i|] eqn:E; [|easy]. f_equal. eapply (kid_at t loc 0 0 [] p (-1) []); eauto. }
  assert (AtN : forall x, In x Kn -> loc (p ++ [x]) = Some (Z.lxor bn x)).
  { intros x I. apply InN in I. destruct (loc (p ++ [x])) as [i|] eqn:E; [|easy]. f_equal. eapply (kid_at t loc 0 0 [] p (-1) []); eauto. }
  pose proof (h_sorted _ _ _ _ _ HN) as SN. pose proof (h_sorted _ _ _ _ _ HP) as SP. pose proof (h_sibs _ _ _ _ _ HN) as SbN. pose proof (h_sibs _ _ _ _ _ HP) as SbP.
  pose proof (h_child _ _ _ _ _ HN) as ChN. pose proof (h_child _ _ _ _ _ HP) as ChP. unfold chd in ChN, ChP. fold bn in SbN. fold bp in SbP.
  unfold resolve. fold to. rewrite get_a_ok by lia. cbn [bind]. rewrite CK. rewrite get_a_ok by easy. cbn [bind]. fold bp.
  rewrite get_i_ok by easy. cbn [bind]. rewrite get_i_ok by easy. cbn [bind]. rewrite ChN, ChP.
  assert (CON : exists flag, consult 257 t bn bp (hd 0 Kn) (hd 0 Kp) = Ok flag).
  { destruct Kn as [|kn Kn]; [easy|]. destruct Kp as [|kp Kp]; [easy|]. cbn [hd].
    apply (consult_ok t bn R bp (kp :: Kp) Kn kn kp Kp 257); try easy.
    - intros x I. apply BdN in I. lia. - intros x I. apply BdP in I. lia.
    - pose proof (labels_length _ SN ltac:(intros c I; now apply BdN)) as X. cbn [length] in X. lia. }
  destruct CON as (flag & ->). cbn [bind]. destruct flag.
  - (* the children of [from] move *)
    destruct (list_children_ok t bn R Kn (Some label)) as (ks & -> & SL & IL & _ & _); try easy.
    { split; [|easy]. intros I. apply InN in I. easy. }
    cbn [bind]. assert (IL' : forall c, In c ks <-> In c Kn \/ c = label). { intros c. rewrite IL. split; (intros [X|X]; [now left|right; congruence]). }
    assert (LK : forall c, In c ks -> 0 <= c < 256). { intros c I. apply IL' in I as [I| ->]; [now apply BdN|easy]. }
    destruct ks as [|first rest]; [assert (X : In label []) by (apply IL'; now right); easy|].
    destruct (find_room t first rest F) as (t1 & e & -> & GR & F1 & RM1 & RM2); [apply LK; now left|intros c I; apply LK; now right|]. cbn [bind].
    pose proof (grow_tree _ _ _ _ _ _ _ _ GR T) as T1. pose proof (grow_links _ _ _ _ _ _ _ _ _ GR T ST' L) as L1. pose proof (w_size _ _ GR) as WS.
    assert (A1 : arr t1 from = arr t from) by (apply GR; lia). assert (I1 : inf t1 from = inf t from) by (apply GR; lia).
    pose proof (LK first (or_introl eq_refl)) as HF. pose proof (RM2 first (or_introl eq_refl)) as FE. rewrite lxor_twice in FE.
    set (base := Z.lxor e first) in *. assert (Bb : 256 <= base < size t1). { split; [apply big_lxor; easy|]. apply lxor_mem; [easy|destruct FE; lia|easy]. }
    assert (HS : exists t2, (if true && (first =? label) then set_child t1 from label else Ok t1) = Ok t2 /\ arr t2 = arr t1 /\ size t2 = size t1 /\ FI t2 /\
      (forall y, y <> from -> inf t2 y = inf t1 y) /\ sib t2 from = sib t1 from /\ chd t2 from = first).
    { cbn [andb]. destruct (Z.eqb_spec first label) as [->|NL].
      - rewrite set_child_ok by (try apply F1; lia). eexists. split; [reflexivity|]. split; [easy|]. split; [easy|]. split; [now apply (FI_with_inf t1)|].
        split; [intros y Y; cbn [inf]; now rewrite upd_ne|]. unfold sib, chd. cbn [inf]. rewrite upd_eq. easy.
      - exists t1. split; [easy|]. split; [easy|]. split; [easy|]. split; [easy|]. split; [easy|]. split; [easy|]. unfold chd. rewrite I1, ChN.
        symmetry. apply (sorted_head label Kn (first :: rest)); easy. }
    destruct HS as (t2 & -> & A2 & S2 & F2 & I2 & SI2 & CH2). cbn [bind]. rewrite set_base_ok by lia. cbn [bind]. rewrite A2.
    match goal with |- context [move_all ?x _ _ _ _ _ _ _ _] => set (t3 := x) end.
    assert (F3 : FI t3).
    { unfold t3. rewrite <- A2. apply FI_set_base; [easy|]. unfold freec. rewrite A2, S2. intros X. apply FF. unfold freec. rewrite A1 in X. lia. }
    assert (P3 : Loop t3 loc from (base_ (arr t1 from)) p base [] (first :: rest) p (-1)).
    { apply (start_loop t1 t3); try easy.
      - rewrite A1. fold bn. lia.
      - intros c X. apply IL'. left. now apply InN. }
    rewrite A1 in P3. fold bn in P3.
    destruct (move_new from bn p base label from NR HL (first :: rest) t3 loc [] p P3) as (t' & loc' & E' & P' & S' & D' & K' & V').
    { unfold t3. cbn [size]. lia. }
    { intros c I NC. apply IL' in I as [I|I]; [now apply AtN|easy]. }
    { left. split; [apply IL'; now right|]. easy. }
    fold to in E'. rewrite E'. cbn [bind]. eexists t', from, _. split; [reflexivity|]. exists loc'. cbn [app] in P'.
    assert (LB : loc' (p ++ [label]) = Some (Z.lxor base label)) by (apply (p_done _ _ _ _ _ _ _ _ _ _ P'), IL'; now right).
    split; [|split; [|split; [easy|split; [easy|split]]]].
    + apply (finish_loop _ _ _ _ _ _ _ _ P' NR). intros c. rewrite D', IL', InN. split; (intros [X|X]; [now left|right]); [now apply app_inj_tail in X|now subst].
    + apply P'.
    + eapply keeps_trans; [|exact K']. apply keeps_same. intros q i LQ'. unfold t3. cbn [arr]. rewrite upd_ne.
      * apply (t_in _ _ _ _ _ _ _ T) in LQ'. now rewrite (w_arr _ _ GR).
      * intros ->. assert (X : q ++ [0] = p) by (eapply (t_inj _ _ _ _ _ _ _ T); eauto). apply ZP. rewrite <- X, in_app_iff. right. now left.
    + intros -> X. destruct (V' eq_refl X) as (i & Y1 & Y2). rewrite LB in Y1. injection Y1 as <-. exact Y2.
  - (* the children of the other node move *)
    destruct (list_children_ok t bp R Kp None) as (ks & -> & _ & _ & EK & _); try easy. rewrite (EK eq_refl). clear ks EK. cbn [bind].
    destruct Kp as [|first rest]; [easy|].
    destruct (find_room t first rest F) as (t1 & e & -> & GR & F1 & RM1 & RM2); [apply BdP; now left|intros c I; apply BdP; now right|]. cbn [bind].
    pose proof (grow_tree _ _ _ _ _ _ _ _ GR T) as T1. pose proof (grow_links _ _ _ _ _ _ _ _ _ GR T ST' L) as L1. pose proof (w_size _ _ GR) as WS.
    assert (A1 : arr t1 fp = arr t fp) by (apply GR; lia). assert (I1 : inf t1 fp = inf t fp) by (apply GR; lia).
    pose proof (proj1 (BdP first (or_introl eq_refl))) as HF. pose proof (RM2 first (or_introl eq_refl)) as FE. rewrite lxor_twice in FE.
    set (base := Z.lxor e first) in *. assert (Bb : 256 <= base < size t1). { split; [apply big_lxor; easy|]. apply lxor_mem; [easy|destruct FE; lia|easy]. }
    cbn [andb bind]. rewrite set_base_ok by lia. cbn [bind].
    match goal with |- context [move_all ?x _ _ _ _ _ _ _ _] => set (t3 := x) end.
    assert (F3 : FI t3).
    { unfold t3. apply FI_set_base; [easy|]. unfold freec. rewrite A1. intros X. apply FPF. unfold freec. lia. }
    assert (P3 : Loop t3 loc fp (base_ (arr t1 fp)) pp base [] (first :: rest) p (-1)).
    { apply (start_loop t1 t3); try easy.
      - rewrite A1. fold bp. lia.
      - intros c I. now apply BdP.
      - intros c X. now apply InP.
      - unfold chd, t3. cbn [inf]. now rewrite I1. }
    rewrite A1 in P3. fold bp in P3.
    destruct (move_old fp bp pp base p bn label lp ltac:(congruence) NR ZP ltac:(lia) HL ltac:(symmetry; exact ET) (first :: rest) t3 loc [] p from P3) as (t' & loc' & fn & E' & P' & S' & L1' & L2' & D' & K' & V').
    { intros c I. now apply AtP. } { easy. }
    { unfold t3. cbn [arr]. rewrite upd_ne by congruence. now rewrite (w_arr _ _ GR) by lia. }
    { left. split; [apply InP; congruence|easy]. }
    fold to in E', L2'. rewrite E'. cbn [bind]. eexists t', fn, to. split; [reflexivity|]. exists loc'. cbn [app] in P'.
    split; [|split; [easy|split; [easy|split; [easy|split]]]].
    + apply (finish_loop _ _ _ _ _ _ _ _ P' NRP). intros c. rewrite D', InP. split; [intros [X|X]; [easy|]|now left]. now apply app_inj_tail in X.
    + eapply keeps_trans; [|exact K']. apply keeps_same. intros q i LQ'. unfold t3. cbn [arr]. rewrite upd_ne.
      * apply (t_in _ _ _ _ _ _ _ T) in LQ'. now rewrite (w_arr _ _ GR).
      * intros ->. assert (X : q ++ [0] = pp) by (eapply (t_inj _ _ _ _ _ _ _ T); eauto). apply ZPP. rewrite <- X, in_app_iff. right. now left.
    + intros -> X. unfold to. now apply V'.
Qed.

Lemma Tree_hole t loc p hole c : Tree t loc 0 0 [] p (-1) -> (p = [] \/ loc (p ++ [c]) <> None) -> Tree t loc 0 0 [] hole (-1).
Proof.
  intros T H. split; try apply T. intros q j LQ ZQ NQ. right. destruct (t_base _ _ _ _ _ _ _ T _ _ LQ ZQ NQ) as [(_ & X1 & X2)|X]; [|easy]. subst q. destruct H as [H|H]; [easy|]. now rewrite X2 in H.
Qed.
Lemma Good_hole t loc p hole c : Good t loc p -> (p = [] \/ loc (p ++ [c]) <> None) -> Good t loc hole.
Proof. intros (F & T & L) H. split; [easy|]. split; [|easy]. now apply (Tree_hole t loc p hole c). Qed.

Lemma follow_ok t loc p from label : Good t loc p -> loc p = Some from -> ~ In 0 p -> 0 <= label < 256 -> (p = [] -> label <> 0) ->
  exists t' from' to, follow t from label = Ok (t', from', to) /\ followed t loc p label t' from' to.
Proof.
  intros G LP ZP HL PL. pose proof G as (F & T & L). pose proof F as (R & es & ls & CE & _). destruct (t_in _ _ _ _ _ _ _ T _ _ LP) as (FB & FF & _).
  pose proof (c_size _ _ CE) as CS. pose proof (c_pos _ _ CE) as CP. assert (ST : settled loc 0 [] []) by now left.
  unfold follow. rewrite get_a_ok by easy. cbn [bind]. set (b := base_ (arr t from)).
  destruct (n_kids _ _ _ L _ _ LP ZP ltac:(easy)) as (K & HK).
  destruct (Z.ltb_spec b 0) as [BN|BN].
  - (* no child yet *)
    cbn [bind].
    assert (NR : p <> []). { intros ->. rewrite (t_root _ _ _ _ _ _ _ T) in LP. injection LP as <-. unfold b in BN. rewrite (t_rbase _ _ _ _ _ _ _ T) in BN. lia. }
    destruct (t_base _ _ _ _ _ _ _ T _ _ LP ZP NR) as [(_ & _ & NK)|(X & _)]; [|unfold b in BN; lia].
    assert (K = []) as ->. { destruct K as [|c K]; [easy|]. assert (I : In c (c :: K)) by now left. apply (h_in _ _ _ _ _ HK) in I as [I|[I _]]; [now rewrite NK in I|easy]. }
    destruct (pop_new t b label from F BN FB FF) as (t1 & t3 & e & -> & GR & F1 & FE & E256 & t2 & TK & SB). cbn [bind].
    pose proof (w_size _ _ GR) as WS. pose proof (grow_tree _ _ _ _ _ _ _ _ GR T) as T1. pose proof (grow_links _ _ _ _ _ _ _ _ _ GR T ST L) as L1.
    assert (CN : 0 <= check (Node (if label =? 0 then 0 else -1) from)) by (cbn; lia).
    pose proof (take_tree _ _ _ _ _ _ _ _ _ F1 TK FE CN T1) as T2. pose proof (take_links _ _ _ _ _ _ _ _ _ _ F1 TK FE T1 ST L1) as L2.
    pose proof (k_sz _ _ _ _ TK) as S2. pose proof (k_fi _ _ _ _ TK) as F2. rewrite set_base_ok in SB by lia. injection SB as <-.
    destruct (t_in _ _ _ _ _ _ _ T2 _ _ LP) as (FB2 & FF2 & FE2).
    assert (Bb : 256 <= Z.lxor e label < size t1). { split; [now apply big_lxor|]. apply lxor_mem; [easy|destruct FE; lia|easy]. }
    match goal with |- context [push_sibling ?x _ _ _ _] => set (t3 := x) end.
    assert (F3 : FI t3) by now apply FI_set_base.
    assert (HK2 : kidsof t2 loc p from []).
    { destruct (n_kids _ _ _ L2 _ _ LP ZP ltac:(easy)) as ([|c K] & HK'); [easy|]. assert (I : In c (c :: K)) by now left. apply (h_in _ _ _ _ _ HK') in I as [I|[I _]]; [now rewrite NK in I|easy]. }
    destruct (push_sibling_ok t3 (Z.lxor e label) from [] label (proj1 F3) ltac:(unfold t3; cbn [size]; lia)) as (f & K' & E1 & SK & IK & CH & SB & CE' & SE); try easy.
    { constructor. } { intros x [<-|[]]. rewrite lxor_twice. split; [easy|]. unfold t3. cbn [size]. destruct FE. lia. } { apply HK2. }
    replace (0 <=? b) with false by (symmetry; apply Z.leb_gt; lia). rewrite E1. cbn [bind]. eexists _, from, e. split; [reflexivity|]. exists (updp loc (p ++ [label]) e).
    assert (AE : forall y, y <> from -> arr t3 y = arr t2 y) by (intros y Y; unfold t3; cbn [arr]; now rewrite upd_ne).
    assert (AF : arr t3 from = Node (Z.lxor e label) (check (arr t2 from))) by (unfold t3; cbn [arr]; now rewrite upd_eq).
    assert (NFE : ~ freec t2 e) by (rewrite (k_free _ _ _ _ TK); tauto).
    split; [split; [now apply FI_with_inf|split]|].
    + apply (newborn_tree t2 (with_inf t3 f) loc 0 0 [] p p label from e); try easy; cbn [arr with_inf].
      * destruct FE. lia. * intros y Y1 Y2. now apply AE. * rewrite AE by congruence. apply TK. * rewrite AF. easy. * right. easy. * rewrite AF. cbn. lia.
      * unfold bof. cbn [inP existsb arr with_inf]. rewrite andb_false_r, AF. cbn. now rewrite lxor_twice.
    + apply (newborn_links t2 (with_inf t3 f) loc 0 0 [] p p label from e [] [] K'); try easy; cbn [arr with_inf].
      * intros y. unfold freec. cbn [size arr with_inf]. unfold t3 at 1. cbn [size]. destruct (Z.eq_dec y from) as [->|]; [rewrite AF; easy|now rewrite AE].
      * intros y Y1 Y2. now rewrite AE. * right. easy. * rewrite AF. cbn. now rewrite lxor_twice. * intros X. rewrite AE, (k_at _ _ _ _ TK), X by congruence. easy.
      * rewrite AF. exact SB. * intros x X1 X2. unfold chd at 1. cbn [inf with_inf]. rewrite CE' by easy. easy.
      * unfold chd. cbn [inf with_inf]. rewrite CE' by congruence. unfold chd, t3. cbn [inf]. rewrite (k_i _ _ _ _ TK). rewrite (n_free _ _ _ L1) by easy. easy.
      * rewrite AF. intros x X. unfold sib at 1. cbn [inf with_inf]. rewrite SE by easy. easy.
    + split; [now rewrite updp_ne by apply snoc_ne|]. split; [apply updp_eq|]. split; [|split].
      * intros q. unfold updp. destruct (list_eq_dec Z.eq_dec q (p ++ [label])) as [->|]; [intuition easy|]. intuition easy.
      * intros q i LQ. exists i. assert (NI : i <> from). { intros ->. apply ZP. assert (X : q ++ [0] = p) by (eapply (t_inj _ _ _ _ _ _ _ T); eauto). rewrite <- X, in_app_iff. right. now left. }
        destruct (t_in _ _ _ _ _ _ _ T _ _ LQ) as (B1 & _). destruct (t_in _ _ _ _ _ _ _ T1 _ _ LQ) as (_ & B3 & _). destruct (t_in _ _ _ _ _ _ _ T2 _ _ LQ) as (_ & _ & B2).
        split; [rewrite updp_ne; [easy|]; intros X; rewrite X, NK in LQ; easy|]. cbn [arr with_inf]. rewrite AE, (k_keep _ _ _ _ TK), (w_arr _ _ GR) by easy. easy.
      * intros -> _. cbn [arr with_inf]. rewrite AE, (k_at _ _ _ _ TK) by congruence. easy.
  - assert (BB : p = [] /\ b = 0 \/ p <> [] /\ 256 <= b < size t /\ exists c, loc (p ++ [c]) <> None).
    { destruct (list_eq_dec Z.eq_dec p []) as [->|NR].
      - left. rewrite (t_root _ _ _ _ _ _ _ T) in LP. injection LP as <-. split; [easy|]. apply T.
      - right. split; [easy|]. destruct (t_base _ _ _ _ _ _ _ T _ _ LP ZP NR) as [(X & _)|X]; [unfold b in BN; lia|easy]. }
    assert (BS : 0 <= b < size t) by (destruct BB as [(_ & ->)|(_ & X & _)]; lia).
    pose proof (lxor_mem t b label F BS HL) as TB. set (to := Z.lxor b label) in *.
    assert (T0 : 0 < to). { unfold to. destruct BB as [(X & ->)|(_ & X & _)]; [rewrite Z.lxor_0_l; specialize (PL X); lia|]. pose proof (big_lxor b label ltac:(lia) HL). lia. }
    assert (KN : match K with [] => false | _ => true end = true).
    { destruct K; [|easy]. destruct BB as [(X & _)|(_ & _ & c & X)]; [assert (Y : In 0 []) by (apply (h_in _ _ _ _ _ HK); now right)|assert (Y : In c []) by (apply (h_in _ _ _ _ _ HK); now left)]; easy. }
    rewrite get_a_ok by lia. cbn [bind]. destruct (Z.ltb_spec (check (arr t to)) 0) as [C0|C0].
    + (* the cell is free *)
      assert (FE : freec t to) by (split; [lia|easy]).
      assert (LN : loc (p ++ [label]) = None).
      { destruct (loc (p ++ [label])) as [i|] eqn:E; [exfalso|easy]. assert (i = to) by (eapply (kid_at t loc 0 0 [] p (-1) []); eauto). subst i. now apply (t_in _ _ _ _ _ _ _ T) in E. }
      destruct (pop_at t b label from F BN ltac:(lia) FE) as (t1 & -> & TK). cbn [bind]. fold to in TK |- *.
      assert (CN : 0 <= check (Node (if label =? 0 then 0 else -1) from)) by (cbn; lia).
      pose proof (take_tree _ _ _ _ _ _ _ _ _ F TK FE CN T) as T1. pose proof (take_links _ _ _ _ _ _ _ _ _ _ F TK FE T ST L) as L1.
      pose proof (k_sz _ _ _ _ TK) as S1. pose proof (k_fi _ _ _ _ TK) as F1.
      assert (A1 : arr t1 from = arr t from) by (apply TK; [intros X; apply FF; rewrite X; exact FE|easy]).
      assert (HK1 : kidsof t1 loc p from K).
      { destruct HK as [X1 X2 X3 X4]. split; try easy; [unfold chd; now rewrite (k_i _ _ _ _ TK)|]. rewrite A1. eapply sibs_ext; [|exact X4]. intros c _. unfold sib. now rewrite (k_i _ _ _ _ TK). }
      destruct (t_in _ _ _ _ _ _ _ T1 _ _ LP) as (FB1 & FF1 & FE1).
      pose proof (h_sibs _ _ _ _ _ HK1) as HS. rewrite A1 in HS. fold b in HS.
      destruct (push_sibling_ok t1 b from K label (proj1 F1) FB1) as (f & K' & E1 & SK & IK & CH & SB & CE' & SE); try easy.
      { apply HK1. } { intros x [<-|I]; [fold to; split; [easy|lia]|]. pose proof (kid_bounds _ _ _ _ _ _ _ _ _ _ _ _ T ST LP ltac:(easy) HK I) as X. fold b in X. lia. }
      { apply HK1. } { intros I. apply (h_in _ _ _ _ _ HK) in I as [I|[X Y]]; [easy|]. now apply PL. }
      rewrite KN in E1. unfold to at 1. rewrite lxor_twice. destruct (Z.leb_spec 0 b); [|lia]. rewrite E1. cbn [bind].
      eexists _, from, to. split; [reflexivity|]. exists (updp loc (p ++ [label]) to).
      assert (NFE : ~ freec t1 to) by (rewrite (k_free _ _ _ _ TK); tauto).
      split; [split; [now apply FI_with_inf|split]|].
      * apply (newborn_tree t1 (with_inf t1 f) loc 0 0 [] p p label from to); try easy; cbn [arr with_inf].
        -- lia. -- apply TK. -- now left. -- intros NR. rewrite A1. fold b. rewrite S1. destruct BB as [(X & _)|(_ & X & _)]; easy.
        -- unfold bof. cbn [inP existsb arr with_inf]. now rewrite andb_false_r, A1.
      * apply (newborn_links t1 (with_inf t1 f) loc 0 0 [] p p label from to [] K K'); try easy; cbn [arr with_inf].
        -- now left. -- now rewrite A1. -- intros X. rewrite (k_at _ _ _ _ TK), X. easy. -- rewrite A1. exact SB.
        -- intros x X1 X2. unfold chd at 1. cbn [inf with_inf]. now rewrite CE'.
        -- unfold chd. cbn [inf with_inf]. rewrite CE' by congruence. unfold chd. rewrite (k_i _ _ _ _ TK), (n_free _ _ _ L) by easy. easy.
        -- rewrite A1. intros x X. unfold sib at 1. cbn [inf with_inf]. now rewrite SE.
      * split; [now rewrite updp_ne by apply snoc_ne|]. split; [apply updp_eq|]. split; [|split].
        -- intros q. unfold updp. destruct (list_eq_dec Z.eq_dec q (p ++ [label])) as [->|]; [intuition easy|]. intuition easy.
        -- intros q i LQ. exists i. destruct (t_in _ _ _ _ _ _ _ T _ _ LQ) as (_ & B3 & _). destruct (t_in _ _ _ _ _ _ _ T1 _ _ LQ) as (_ & _ & B2).
           split; [rewrite updp_ne; [easy|]; intros X; congruence|]. cbn [arr with_inf]. now rewrite (k_keep _ _ _ _ TK).
        -- intros -> _. cbn [arr with_inf]. rewrite (k_at _ _ _ _ TK). easy.
    + destruct (Z.eqb_spec (check (arr t to)) from) as [CF|CF]; cbn [negb].
      * (* the child is there *)
        assert (LC : loc (p ++ [label]) = Some to).
        { destruct (t_all _ _ _ _ _ _ _ T to ltac:(lia) C0) as [X|[q LQ]]; [lia|].
          assert (NQ : q <> []). { intros ->. rewrite (t_root _ _ _ _ _ _ _ T) in LQ. injection LQ. lia. }
          destruct (exists_last NQ) as (pp & lp & ->). destruct (t_node _ _ _ _ _ _ _ T _ _ _ LQ) as (HLP & ZPP & PPL & fp & LPP & CK & ET).
          assert (EF : fp = from) by congruence. rewrite EF in *. pose proof (t_inj _ _ _ _ _ _ _ T pp p from LPP LP) as EP. rewrite EP in *.
          unfold bof in ET. cbn [inP existsb] in ET. rewrite andb_false_r in ET. fold b in ET. unfold to in ET. apply lxor_inj_r in ET. now rewrite ET. }
        exists t, from, to. split; [easy|]. exists loc. split; [apply (Good_hole t loc p _ label G); right; congruence|]. split; [easy|]. split; [easy|]. split; [|split; [apply keeps_refl|intros ->; congruence]].
        intros q. split; [tauto|]. intros [X| ->]; [easy|congruence].
      * apply resolve_ok; try easy. destruct (loc (p ++ [label])) as [i|] eqn:E; [exfalso|easy].
        assert (i = to) by (eapply (kid_at t loc 0 0 [] p (-1) []); eauto). subst i. destruct (t_node _ _ _ _ _ _ _ T _ _ _ E) as (_ & _ & _ & j & LJ & CK & _). congruence.
Qed.
