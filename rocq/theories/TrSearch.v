(** Insertions and searches on a tree at rest. *)
From Verif Require Import Base ListAux TrModel TrRing TrFree TrCells TrRoom TrPlace TrTree TrMove TrLoop TrFollow.
From Coq Require Import Sorted.
Local Open Scope Z_scope.

(** nobody waits for a child *)
Definition Rest (t : da) (loc : locs) : Prop := Good t loc [0].
Definition bound (t : da) (loc : locs) (k : list Z) : option Z :=
  match loc (k ++ [0]) with Some i => Some (base_ (arr t i)) | None => None end.
Definition key_ok (k : list Z) : Prop := forall c, In c k -> 0 < c < 256.

Lemma key_ok_zero k : key_ok k -> ~ In 0 k.
Proof. intros H I. apply H in I. lia. Qed.
Lemma keeps_bound t loc t' loc' : keeps t loc t' loc' -> (forall k, loc' (k ++ [0]) <> None -> loc (k ++ [0]) <> None) -> forall k, bound t' loc' k = bound t loc k.
Proof.
  intros K D k. unfold bound. destruct (loc (k ++ [0])) as [i|] eqn:E.
  - destruct (K _ _ E) as (i' & -> & ->). easy.
  - specialize (D k). destruct (loc' (k ++ [0])); [|easy]. elim D; easy.
Qed.

Lemma walk_ok : forall key t loc p from, Good t loc p -> loc p = Some from -> key_ok (p ++ key) ->
  exists t' to loc', walk t from key = Ok (t', to) /\ Good t' loc' (p ++ key) /\ loc' (p ++ key) = Some to /\ forall k, bound t' loc' k = bound t loc k.
Proof.
  induction key as [|c key IH]; intros t loc p from G LP KO; cbn [walk].
  - exists t, from, loc. rewrite app_nil_r. easy.
  - assert (KP : key_ok p) by (intros x I; apply KO; rewrite in_app_iff; now left). assert (KC : 0 < c < 256) by (apply KO; rewrite in_app_iff; right; now left).
    destruct (follow_ok t loc p from c G LP (key_ok_zero _ KP) ltac:(lia) ltac:(lia)) as (t1 & from1 & to & -> & loc1 & G1 & L1 & L2 & D1 & K1 & _). cbn [bind].
    destruct (IH t1 loc1 (p ++ [c]) to G1 L2) as (t' & to' & loc' & -> & G' & L' & B'); [rewrite <- app_assoc; easy|]. exists t', to', loc'. split; [easy|].
    rewrite <- app_assoc in G', L'. cbn [app] in G', L'. split; [easy|]. split; [easy|]. intros k. rewrite B'. apply keeps_bound; [easy|]. intros q X. apply D1 in X as [X|X]; [easy|].
    apply app_inj_tail in X as [_ X]. lia.
Qed.

(** a value changes *)
Lemma Good_value t loc hole k i v : Good t loc hole -> loc (k ++ [0]) = Some i ->
  Good (Da (upd (arr t) i (Node v (check (arr t i)))) (inf t) (blk t) (headF t) (headC t) (headO t) (size t) (rej t) (ready t)) loc hole.
Proof.
  intros (F & T & L) LI. destruct (t_in _ _ _ _ _ _ _ T _ _ LI) as (IB & IF & _). set (t' := Da _ _ _ _ _ _ _ _ _).
  assert (NN : k ++ [0] <> []) by (intros X; now apply app_eq_nil in X as [_ X]). pose proof (loc_pos _ _ _ _ _ _ _ T _ _ LI NN) as I0.
  assert (CK : forall y, check (arr t' y) = check (arr t y)) by (intros y; unfold t'; cbn [arr]; unfold upd; now destruct (Z.eqb_spec y i) as [->|]).
  assert (NE : forall y, y <> i -> arr t' y = arr t y) by (intros y Y; unfold t'; cbn [arr]; now rewrite upd_ne).
  assert (FR : forall y, freec t' y <-> freec t y) by (intros y; unfold freec; now rewrite CK).
  assert (NZ : forall p j, loc p = Some j -> ~ In 0 p -> j <> i). { intros p j LP ZP ->. apply ZP. assert (X : p = k ++ [0]) by (eapply (t_inj _ _ _ _ _ _ _ T); eauto). rewrite X, in_app_iff. right. now left. }
  split; [|split].
  - now apply FI_set_base.
  - split; try apply T.
    + rewrite NE by lia. apply T.
    + intros y Y. rewrite CK. now apply T.
    + intros q j LQ. rewrite FR. now apply (t_in _ _ _ _ _ _ _ T) in LQ.
    + intros q c j LQ. destruct (t_node _ _ _ _ _ _ _ T _ _ _ LQ) as (A & B & C & x & LX & D & E). split; [easy|]. split; [easy|]. split; [easy|]. exists x. split; [easy|]. rewrite CK. split; [easy|].
      rewrite E. unfold bof. cbn [inP existsb]. rewrite andb_false_r, NE by (now apply (NZ q)). easy.
    + intros q j LQ ZQ NQ. rewrite NE by (now apply (NZ q)). now apply T.
  - split.
    + intros q j LQ ZQ NQ. destruct (n_kids _ _ _ L q j LQ ZQ NQ) as (K & HK). exists K. split; try apply HK. rewrite NE by (now apply (NZ q)). apply HK.
    + apply L.
    + intros y Y. apply FR in Y. now apply (n_free _ _ _ L).
Qed.

Definition plus (o : option Z) (v : Z) : Z := match o with Some x => x + v | None => v end.
Lemma update_ready t loc key v : Rest t loc -> key <> [] -> key_ok key -> int32 (plus (bound t loc key) v) = true ->
  exists t' loc', update t key v = Ok (Some t') /\ Rest t' loc' /\ forall k, bound t' loc' k = if list_eq_dec Z.eq_dec k key then Some (plus (bound t loc key) v) else bound t loc k.
Proof.
  intros G NK KO I32. pose proof G as (F & T & L). pose proof F as (R & _). destruct key as [|c0 key0] eqn:EK; [easy|]. rewrite <- EK in *. clear EK c0 key0.
  assert (update t key v = let! t := if ready t then Ok t else restore t in let! (t, from) := walk t 0 key in let! (t, _, to) := follow t from 0 in let! t := add_value t to v in Ok (Some t)) as -> by (now destruct key).
  rewrite R. cbn [bind]. pose proof (t_root _ _ _ _ _ _ _ T) as L0.
  assert (G0 : Good t loc []). { split; [easy|]. split; [|easy]. split; try apply T. intros q j LQ ZQ NQ. right. destruct (t_base _ _ _ _ _ _ _ T _ _ LQ ZQ NQ) as [(_ & X & _)|X]; [|easy]. subst q. elim ZQ. now left. }
  destruct (walk_ok key t loc [] 0 G0 L0 KO) as (t1 & from & loc1 & -> & G1 & L1 & B1). cbn [bind app] in *.
  destruct (follow_ok t1 loc1 key from 0 G1 L1 (key_ok_zero _ KO) ltac:(lia) ltac:(easy)) as (t2 & from2 & to & -> & loc2 & G2 & _ & L2 & D2 & K2 & V2). cbn [bind].
  pose proof G2 as (F2 & T2 & _). destruct (t_in _ _ _ _ _ _ _ T2 _ _ L2) as (TB & _).
  assert (BV : base_ (arr t2 to) + v = plus (bound t loc key) v).
  { rewrite <- B1. unfold bound. destruct (loc1 (key ++ [0])) as [i|] eqn:E.
    - destruct (K2 _ _ E) as (i' & X & Y). rewrite L2 in X. injection X as <-. cbn. lia.
    - rewrite (V2 eq_refl eq_refl). cbn. lia. }
  unfold add_value. rewrite get_a_ok by easy. cbn [bind]. rewrite BV, I32. rewrite set_base_ok by easy. cbn [bind]. eexists _, loc2. split; [reflexivity|].
  assert (G3 : Good t2 loc2 [0]).
  { split; [easy|]. split; [|apply G2]. split; try apply T2. intros q j LQ ZQ NQ. right. destruct (t_base _ _ _ _ _ _ _ T2 _ _ LQ ZQ NQ) as [(_ & X & _)|X]; [|easy]. subst q. elim ZQ. rewrite in_app_iff. right. now left. }
  split; [now apply (Good_value t2 loc2 [0] key)|]. intros k. unfold bound at 1. destruct (list_eq_dec Z.eq_dec k key) as [->|NE].
  - rewrite L2. cbn [arr]. now rewrite upd_eq.
  - rewrite <- (B1 k). unfold bound. destruct (loc1 (k ++ [0])) as [i|] eqn:E.
    + destruct (K2 _ _ E) as (i' & X & Y). rewrite X. cbn [arr]. rewrite upd_ne; [now rewrite Y|]. intros ->. apply NE.
      assert (Z : k ++ [0] = key ++ [0]) by (eapply (t_inj _ _ _ _ _ _ _ T2); eauto). now apply app_inj_tail in Z.
    + destruct (loc2 (k ++ [0])) as [i|] eqn:E2; [exfalso|easy]. destruct (proj1 (D2 (k ++ [0]))) as [X|X]; [congruence|congruence|]. now apply app_inj_tail in X.
Qed.

(** ** Searches *)
Lemma find_ok t loc p from c : Rest t loc -> loc p = Some from -> key_ok p -> 0 <= c < 256 -> (c = 0 -> bound t loc p = None) ->
  (loc (p ++ [c]) = None /\ find1 t from c = Ok (NO_PATH, from)) \/
  exists to, loc (p ++ [c]) = Some to /\ c <> 0 /\ find1 t from c = Ok (match bound t loc (p ++ [c]) with Some v => v | None => NO_VALUE end, to).
Proof.
  intros G LP KP HC NB. pose proof G as (F & T & L). pose proof F as (R & es & ls & CE & _). pose proof (key_ok_zero _ KP) as ZP.
  destruct (t_in _ _ _ _ _ _ _ T _ _ LP) as (FB & FF & _). pose proof (c_size _ _ CE) as CS. pose proof (c_pos _ _ CE) as CP.
  assert (BB : forall q j, loc q = Some j -> ~ In 0 q -> q <> [] -> 256 <= base_ (arr t j) < size t).
  { intros q j LQ ZQ NQ. destruct (t_base _ _ _ _ _ _ _ T _ _ LQ ZQ NQ) as [(_ & X & _)|(X & _)]; [|easy]. subst q. elim ZQ. now left. }
  assert (AT : forall q j d i, loc q = Some j -> loc (q ++ [d]) = Some i -> i = Z.lxor (base_ (arr t j)) d). { intros q j d i LQ LD. eapply (kid_at t loc 0 0 [] [0] (-1) []); eauto. now left. }
  assert (CH : forall q j d, loc q = Some j -> 0 <= d < 256 -> (q = [] -> d <> 0) -> (q = [] \/ 256 <= base_ (arr t j) < size t) ->
    let to := Z.lxor (base_ (arr t j)) d in 0 < to < size t /\ (check (arr t to) = j <-> loc (q ++ [d]) = Some to)).
  { intros q j d LQ HD QD HB to.
    assert (B0 : q = [] /\ base_ (arr t j) = 0 \/ 256 <= base_ (arr t j) < size t).
    { destruct (list_eq_dec Z.eq_dec q []) as [->|]; [left|right; tauto]. split; [easy|]. rewrite (t_root _ _ _ _ _ _ _ T) in LQ. injection LQ as <-. apply T. }
    assert (TB : 0 < to < size t).
    { unfold to. destruct B0 as [(X & ->)|X]; [rewrite Z.lxor_0_l; specialize (QD X); lia|]. pose proof (big_lxor _ d (proj1 X) HD). pose proof (lxor_mem t (base_ (arr t j)) d F ltac:(lia) HD). lia. }
    split; [easy|]. split.
    - intros CK. destruct (t_in _ _ _ _ _ _ _ T _ _ LQ) as (JB & _). destruct (t_all _ _ _ _ _ _ _ T to TB ltac:(lia)) as [X|[r LR]]; [lia|].
      assert (NR : r <> []). { intros ->. rewrite (t_root _ _ _ _ _ _ _ T) in LR. injection LR. lia. }
      destruct (exists_last NR) as (pp & lp & ->). destruct (t_node _ _ _ _ _ _ _ T _ _ _ LR) as (_ & _ & _ & fp & LPP & CK' & ET).
      assert (EF : fp = j) by congruence. rewrite EF in *. pose proof (t_inj _ _ _ _ _ _ _ T pp q j LPP LQ) as EP. rewrite EP in *.
      unfold bof in ET. cbn [inP existsb] in ET. rewrite andb_false_r in ET. unfold to in ET. apply lxor_inj_r in ET. now rewrite ET.
    - intros LD. destruct (t_node _ _ _ _ _ _ _ T _ _ _ LD) as (_ & _ & _ & x & LX & CK & _). congruence. }
  unfold find1. rewrite get_a_ok by easy. cbn [bind].
  destruct (list_eq_dec Z.eq_dec p []) as [EP|NP]; [destruct (Z.eq_dec c 0) as [->|NC]|].
  - (* NUL at the root *)
    subst p. rewrite (t_root _ _ _ _ _ _ _ T) in LP. injection LP as <-. rewrite (t_rbase _ _ _ _ _ _ _ T). cbn [Z.lxor]. rewrite get_a_ok by easy. cbn [bind].
    pose proof (c_root _ _ CE) as C0. destruct (Z.eqb_spec (check (arr t 0)) 0); [lia|]. left. split; [|easy].
    destruct (loc ([] ++ [0])) as [i|] eqn:E; [exfalso|easy]. apply (t_node _ _ _ _ _ _ _ T) in E as (_ & _ & X & _). now apply X.
  - destruct (CH p from c LP HC ltac:(easy) ltac:(now left)) as (TB & IFF). rewrite get_a_ok by lia. cbn [bind].
    destruct (Z.eqb_spec (check (arr t (Z.lxor (base_ (arr t from)) c))) from) as [E|E]; cbn [negb].
    + apply IFF in E. right. exists (Z.lxor (base_ (arr t from)) c). split; [easy|]. split; [easy|]. set (to := Z.lxor (base_ (arr t from)) c) in *.
      assert (Zq : ~ In 0 (p ++ [c])) by (rewrite in_app_iff; cbn; tauto). assert (NN : p ++ [c] <> []) by (intros X; now apply app_eq_nil in X as [_ X]).
      pose proof (BB _ _ E Zq NN) as B2. destruct (CH (p ++ [c]) to 0 E ltac:(lia) ltac:(easy) ltac:(now right)) as (TB2 & IFF2). rewrite Z.lxor_0_r in TB2, IFF2.
      rewrite get_a_ok by lia. cbn [bind]. do 2 f_equal. unfold bound. destruct (Z.eqb_spec (check (arr t (base_ (arr t to)))) to) as [E2|E2]; [apply IFF2 in E2; now rewrite E2|].
      destruct (loc ((p ++ [c]) ++ [0])) as [i|] eqn:EI; [exfalso|easy]. pose proof (AT _ _ _ _ E EI) as X. rewrite Z.lxor_0_r in X. subst i. now apply E2, IFF2.
    + left. split; [|easy]. destruct (loc (p ++ [c])) as [i|] eqn:EI; [exfalso|easy]. pose proof (AT _ _ _ _ LP EI) as X. subst i. now apply E, IFF.
  - destruct (CH p from c LP HC ltac:(easy) ltac:(right; now apply (BB p))) as (TB & IFF). rewrite get_a_ok by lia. cbn [bind].
    destruct (Z.eqb_spec (check (arr t (Z.lxor (base_ (arr t from)) c))) from) as [E|E]; cbn [negb].
    + apply IFF in E. right. exists (Z.lxor (base_ (arr t from)) c). split; [easy|]. set (to := Z.lxor (base_ (arr t from)) c) in *.
      assert (C0 : c <> 0). { intros ->. specialize (NB eq_refl). unfold bound in NB. now rewrite E in NB. }
      split; [easy|].
      assert (Zq : ~ In 0 (p ++ [c])) by (rewrite in_app_iff; cbn; intuition). assert (NN : p ++ [c] <> []) by (intros X; now apply app_eq_nil in X as [_ X]).
      pose proof (BB _ _ E Zq NN) as B2. destruct (CH (p ++ [c]) to 0 E ltac:(lia) ltac:(easy) ltac:(now right)) as (TB2 & IFF2). rewrite Z.lxor_0_r in TB2, IFF2.
      rewrite get_a_ok by lia. cbn [bind]. do 2 f_equal. unfold bound. destruct (Z.eqb_spec (check (arr t (base_ (arr t to)))) to) as [E2|E2]; [apply IFF2 in E2; now rewrite E2|].
      destruct (loc ((p ++ [c]) ++ [0])) as [i|] eqn:EI; [exfalso|easy]. pose proof (AT _ _ _ _ E EI) as X. rewrite Z.lxor_0_r in X. subst i. now apply E2, IFF2.
    + left. split; [|easy]. destruct (loc (p ++ [c])) as [i|] eqn:EI; [exfalso|easy]. pose proof (AT _ _ _ _ LP EI) as X. subst i. now apply E, IFF.
Qed.

(** the prefixes of [p ++ w] longer than [p] that are keys *)
Fixpoint found (b : list Z -> option Z) (p : list Z) (pos : Z) (w : list Z) : list (Z * Z) :=
  match w with
  | [] => []
  | c :: w => match b (p ++ [c]) with Some v => [(pos + 1, v)] | None => [] end ++ found b (p ++ [c]) (pos + 1) w
  end.
Lemma found_none b : forall w p pos, (forall k, k <> [] -> b (p ++ k) = None) -> found b p pos w = [].
Proof.
  induction w as [|c w IH]; intros p pos H; cbn [found]; [easy|]. rewrite (H [c]) by easy. cbn [app]. apply IH. intros k K. rewrite <- app_assoc. apply H. easy.
Qed.
Lemma unlocated t loc hole : Good t loc hole -> forall k p, loc p = None -> bound t loc (p ++ k) = None.
Proof.
  intros (F & T & L) k p LN. unfold bound. assert (X : forall k, loc (p ++ k) = None); [|now rewrite <- app_assoc, X].
  clear k. intros k. induction k as [|c k IH] using rev_ind; [now rewrite app_nil_r|]. rewrite app_assoc. eapply loc_prefix; eauto.
Qed.
Lemma search_ok t loc : Rest t loc -> (forall k v, bound t loc k = Some v -> v <> NO_VALUE /\ v <> NO_PATH) ->
  forall w p from pos, loc p = Some from -> key_ok p -> (forall c, In c w -> 0 <= c < 256) -> (forall k r, w = k ++ 0 :: r -> bound t loc (p ++ k) = None) ->
  common_prefix_search t from pos w = Ok (found (bound t loc) p pos w).
Proof.
  intros G VAL. induction w as [|c w IH]; intros p from pos LP KP HW HZ; cbn [common_prefix_search found]; [easy|].
  destruct (find_ok t loc p from c G LP KP ltac:(apply HW; now left)) as [(LN & E)|(to & LT & C0 & E)].
  { intros ->. specialize (HZ [] w eq_refl). now rewrite app_nil_r in HZ. }
  - rewrite E. cbn [bind]. change (NO_PATH =? NO_PATH) with true. cbv iota. f_equal. symmetry.
    rewrite found_none; [|intros k _; now apply (unlocated t loc [0])]. pose proof (unlocated t loc [0] G [] _ LN) as X. rewrite app_nil_r in X. now rewrite X.
  - rewrite E. cbn [bind]. assert (KC : key_ok (p ++ [c])). { intros x I. rewrite in_app_iff in I. destruct I as [I|[<-|[]]]; [now apply KP|]. specialize (HW c (or_introl eq_refl)). lia. }
    rewrite (IH (p ++ [c]) to (pos + 1) LT KC); [|intros x I; apply HW; now right|].
    2:{ intros k r ->. rewrite <- app_assoc. apply (HZ (c :: k) r). easy. }
    destruct (bound t loc (p ++ [c])) as [v|] eqn:EV.
    + destruct (VAL _ _ EV) as [V1 V2]. destruct (Z.eqb_spec v NO_PATH); [easy|]. cbn [bind]. destruct (Z.eqb_spec v NO_VALUE); easy.
    + change (NO_VALUE =? NO_PATH) with false. cbn [bind]. change (NO_VALUE =? NO_VALUE) with true. easy.
Qed.
