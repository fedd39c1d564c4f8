(** Proofs about the copy-on-write array. *)
From Verif Require Import Base ListAux CowModel CowSpec.
From Coq Require Import Permutation.

(** * Counting references *)
Definition occ (a : nat) (r : ref) : Z :=
  match r with Some b => if Nat.eqb a b then 1 else 0 | None => 0 end.
Fixpoint cntr (a : nat) (l : list ref) : Z :=
  match l with [] => 0 | r :: l' => occ a r + cntr a l' end.
Definition occs (a : nat) (s : slot) : Z := match s with Raw => 0 | Obj r => occ a r end.
Fixpoint cnts (a : nat) (l : list slot) : Z :=
  match l with [] => 0 | s :: l' => occs a s + cnts a l' end.
Definition cntc (a : nat) (o : option cell) : Z :=
  match o with Some (Arr _ _ sl) => cnts a sl | _ => 0 end.
Fixpoint cnth (a : nat) (h : heap) : Z :=
  match h with [] => 0 | o :: h' => cntc a o + cnth a h' end.
Definition rc (h : heap) (a : nat) : Z :=
  match lookup h a with Some c => cell_rc c | None => 0 end.

Lemma occ_nn a r : 0 <= occ a r. Proof. destruct r; cbn; try lia. destruct (Nat.eqb a n); lia. Qed.
Lemma cntr_nn a l : 0 <= cntr a l.
Proof. induction l; cbn; [lia|]. pose proof (occ_nn a a0). lia. Qed.
Lemma occs_nn a s : 0 <= occs a s. Proof. destruct s; cbn; [lia|apply occ_nn]. Qed.
Lemma cnts_nn a l : 0 <= cnts a l.
Proof. induction l; cbn; [lia|]. pose proof (occs_nn a a0). lia. Qed.
Lemma cntc_nn a o : 0 <= cntc a o.
Proof. destruct o as [[]|]; cbn; try lia. apply cnts_nn. Qed.
Lemma cnth_nn a h : 0 <= cnth a h.
Proof. induction h; cbn; [lia|]. pose proof (cntc_nn a a0). lia. Qed.
Lemma occ_self a : occ a (Some a) = 1. Proof. cbn. now rewrite Nat.eqb_refl. Qed.
Lemma cntr_app a l m : cntr a (l ++ m) = cntr a l + cntr a m.
Proof. induction l; cbn; lia. Qed.
Lemma cnts_app a l m : cnts a (l ++ m) = cnts a l + cnts a m.
Proof. induction l; cbn; lia. Qed.
Lemma cnth_app a l m : cnth a (l ++ m) = cnth a l + cnth a m.
Proof. induction l; cbn; lia. Qed.
Lemma cnts_obj a l : cnts a (map Obj l) = cntr a l.
Proof. induction l; cbn; lia. Qed.
Lemma cnts_raw a n : cnts a (repeat Raw n) = 0.
Proof. induction n; cbn; lia. Qed.
Lemma cntr_perm a l m : Permutation l m -> cntr a l = cntr a m.
Proof. induction 1; cbn; lia. Qed.
Lemma cntr_in a l : In (Some a) l -> 1 <= cntr a l.
Proof.
  induction l; cbn; [easy|]. intros [->|H].
  - pose proof (cntr_nn a l). cbn. rewrite Nat.eqb_refl. lia.
  - pose proof (occ_nn a a0). specialize (IHl H). lia.
Qed.
Lemma cntr_notin a l : cntr a l = 0 -> ~ In (Some a) l.
Proof. intros E H. apply cntr_in in H. lia. Qed.
Lemma cnts_lset b l i x y : nth_error l i = Some x ->
  cnts b (lset l i y) = cnts b l - occs b x + occs b y.
Proof.
  revert i. induction l as [|z l IH]; intros [|i] H; cbn in *; try discriminate.
  - injection H as ->. lia.
  - rewrite (IH i H). lia.
Qed.
Lemma cnth_lset b h i x y : nth_error h i = Some x ->
  cnth b (lset h i y) = cnth b h - cntc b x + cntc b y.
Proof.
  revert i. induction h as [|z l IH]; intros [|i] H; cbn in *; try discriminate.
  - injection H as ->. lia.
  - rewrite (IH i H). lia.
Qed.
Lemma cnts_nth b l i x : nth_error l i = Some x -> occs b x <= cnts b l.
Proof.
  revert i. induction l as [|z l IH]; intros [|i] H; cbn in *; try discriminate.
  - injection H as ->. pose proof (cnts_nn b l). lia.
  - specialize (IH i H). pose proof (occs_nn b z). lia.
Qed.
Lemma cnth_nth b h i x : nth_error h i = Some x -> cntc b x <= cnth b h.
Proof.
  revert i. induction h as [|z l IH]; intros [|i] H; cbn in *; try discriminate.
  - injection H as ->. pose proof (cnth_nn b l). lia.
  - specialize (IH i H). pose proof (cntc_nn b z). lia.
Qed.

(** * Looking cells up *)
Lemma lookup_nth h a c : lookup h a = Some c <-> nth_error h a = Some (Some c).
Proof. unfold lookup. destruct (nth_error h a) as [[]|]; split; congruence. Qed.
Lemma lookup_lt h a c : lookup h a = Some c -> (a < length h)%nat.
Proof. rewrite lookup_nth. intros H. apply nth_error_Some. congruence. Qed.
Lemma lookup_store h a c c0 b : lookup h a = Some c0 ->
  lookup (store h a c) b = if Nat.eqb a b then Some c else lookup h b.
Proof.
  intros H. apply lookup_lt in H. unfold lookup, store. rewrite nth_lset by assumption.
  destruct (Nat.eqb a b); reflexivity.
Qed.
Lemma lookup_free h a c0 b : lookup h a = Some c0 ->
  lookup (lset h a None) b = if Nat.eqb a b then None else lookup h b.
Proof.
  intros H. apply lookup_lt in H. unfold lookup. rewrite nth_lset by assumption.
  destruct (Nat.eqb a b); reflexivity.
Qed.
Lemma lookup_alloc h c b :
  lookup (h ++ [Some c]) b = if Nat.eqb (length h) b then Some c else lookup h b.
Proof.
  unfold lookup. destruct (Nat.eqb_spec (length h) b) as [<-|E].
  - rewrite nth_error_app2 by lia. now rewrite Nat.sub_diag.
  - destruct (Nat.lt_ge_cases b (length h)).
    + now rewrite nth_error_app1 by assumption.
    + rewrite nth_error_app2 by lia. destruct (b - length h)%nat eqn:E'; [lia|].
      cbn. destruct n; cbn; replace (nth_error h b) with (@None (option cell)); auto;
        symmetry; apply nth_error_None; lia.
Qed.
Lemma cell_rc_set c n : cell_rc (set_rc c n) = n. Proof. now destruct c. Qed.
Lemma cntc_set b c n : cntc b (Some (set_rc c n)) = cntc b (Some c). Proof. now destruct c. Qed.
Lemma cnth_store b h a c c0 : lookup h a = Some c0 ->
  cnth b (store h a c) = cnth b h - cntc b (Some c0) + cntc b (Some c).
Proof. intros H. apply lookup_nth in H. unfold store. now apply cnth_lset. Qed.

(** * What a reference stands for *)
Definition junk (s : slot) : Prop := s = Raw \/ s = Obj None.
Inductive den (h : heap) : ref -> val -> Prop :=
| den_null : den h None VNull
| den_leaf a n z : lookup h a = Some (Leaf n z) -> den h (Some a) (VLeaf z)
| den_arr a n rs js l : lookup h a = Some (Arr n (length rs) (map Obj rs ++ js)) ->
    Forall junk js -> dens h rs l -> den h (Some a) (VArr l)
with dens (h : heap) : list ref -> list val -> Prop :=
| dens_nil : dens h [] []
| dens_cons r v rs l : den h r v -> dens h rs l -> dens h (r :: rs) (v :: l).
Scheme den_mut := Induction for den Sort Prop
  with dens_mut := Induction for dens Sort Prop.

Lemma dens_forall h rs l : dens h rs l <-> Forall2 (den h) rs l.
Proof. split; induction 1; constructor; auto. Qed.
Lemma dens_length h rs l : dens h rs l -> length rs = length l.
Proof. induction 1; cbn; congruence. Qed.

(** The same object, whatever its count. *)
Definition sim (c c' : cell) : Prop := set_rc c 0 = set_rc c' 0.
Lemma sim_refl c : sim c c. Proof. reflexivity. Qed.
Lemma sim_set c n : sim c (set_rc c n). Proof. now destruct c. Qed.

Lemma den_frame h h' (P : nat -> Prop) :
  (forall b c, P b -> lookup h b = Some c -> exists c', lookup h' b = Some c' /\ sim c c') ->
  (forall b n k sl i d, P b -> lookup h b = Some (Arr n k sl) ->
     nth_error sl i = Some (Obj (Some d)) -> P d) ->
  forall r v, den h r v -> (forall b, r = Some b -> P b) -> den h' r v.
Proof.
  intros HC HP. 
  apply (den_mut h (fun r v _ => (forall b, r = Some b -> P b) -> den h' r v)
           (fun rs l _ => (forall b, In (Some b) rs -> P b) -> dens h' rs l)).
  - constructor.
  - intros a n z L H. destruct (HC a _ (H a eq_refl) L) as (c' & L' & S).
    destruct c' as [n' z'|]; cbv in S; [|discriminate]. injection S as <-.
    econstructor. exact L'.
  - intros a n rs js l L J D IH H.
    destruct (HC a _ (H a eq_refl) L) as (c' & L' & S).
    destruct c' as [|n' k' sl']; unfold sim in S; cbn in S; [discriminate|]. injection S as <- <-.
    econstructor; eauto. apply IH. intros b HI.
    apply In_nth_error in HI. destruct HI as [i HI].
    apply (HP a n _ _ i b (H a eq_refl) L).
    rewrite nth_error_app1.
    + erewrite map_nth_error; [reflexivity|exact HI].
    + rewrite map_length. apply nth_error_Some. congruence.
  - constructor.
  - intros r v rs l D IH1 DS IH2 H. constructor.
    + apply IH1. intros b ->. apply H. now left.
    + apply IH2. intros b HI. apply H. now right.
Qed.

Lemma den_live h a v : den h (Some a) v -> exists c, lookup h a = Some c.
Proof. inversion 1; eauto. Qed.

(** The content of a slot. *)
Inductive sden (h : heap) : slot -> option val -> Prop :=
| sden_raw : sden h Raw None
| sden_obj r v : den h r v -> sden h (Obj r) (Some v).

(** * The invariant
    [O]: arrays somebody is working on, alone; [E]: references held outside the heap,
    with what they stand for. *)
Definition opened := (nat * nat * list (option val))%type.
Definition oaddr (o : opened) : ref := Some (fst (fst o)).
Record Inv (h : heap) (O : list opened) (E : list (ref * val)) : Prop := {
  I_rc : forall a, rc h a = cnth a h + cntr a (map fst E) + cntr a (map oaddr O);
  I_pos : forall a c, lookup h a = Some c -> 1 <= cell_rc c;
  I_ext : forall r v, In (r, v) E -> den h r v;
  I_open : forall a n us, In (a, n, us) O -> exists sl, lookup h a = Some (Arr 1 n sl) /\ Forall2 (sden h) sl us;
  I_den : forall a c, lookup h a = Some c -> ~ In (Some a) (map oaddr O) -> exists v, den h (Some a) v
}.

Lemma Inv_perm h O O' E E' : Permutation O O' -> Permutation E E' -> Inv h O E -> Inv h O' E'.
Proof.
  intros PO PE [A B C D F]. constructor.
  - intros a. rewrite A. f_equal; [f_equal|].
    + apply cntr_perm. now apply Permutation_map.
    + apply cntr_perm. now apply Permutation_map.
  - exact B.
  - intros r v H. apply C. eapply Permutation_in; [symmetry; exact PE|exact H].
  - intros a n us H. apply D. eapply Permutation_in; [symmetry; exact PO|exact H].
  - intros a c L N. apply (F a c L). intros H. apply N. eapply Permutation_in; [|exact H].
    now apply Permutation_map.
Qed.
Lemma Inv_E h O E E' : Permutation E E' -> Inv h O E -> Inv h O E'.
Proof. apply Inv_perm, Permutation_refl. Qed.

Lemma Inv_live h O E d b n k sl i : Inv h O E -> lookup h b = Some (Arr n k sl) ->
  nth_error sl i = Some (Obj (Some d)) -> exists c, lookup h d = Some c.
Proof.
  intros I L N. pose proof (I_rc _ _ _ I d) as R.
  pose proof (proj1 (lookup_nth _ _ _) L) as L'.
  pose proof (cnth_nth d _ _ _ L') as H1. cbn in H1.
  pose proof (cnts_nth d _ _ _ N) as H2. cbn in H2. rewrite Nat.eqb_refl in H2.
  pose proof (cntr_nn d (map fst E)). pose proof (cntr_nn d (map oaddr O)).
  unfold rc in R. destruct (lookup h d); [eauto|lia].
Qed.

(** An open array is referred to from nowhere else. *)
Lemma open_alone h O E a n us : Inv h ((a, n, us) :: O) E ->
  cnth a h = 0 /\ cntr a (map fst E) = 0 /\ cntr a (map oaddr O) = 0.
Proof.
  intros I. destruct (I_open _ _ _ I a n us (or_introl eq_refl)) as (sl & L & _).
  pose proof (I_rc _ _ _ I a) as R. unfold rc in R. rewrite L in R. cbn in R.
  rewrite Nat.eqb_refl in R.
  pose proof (cntr_nn a (map fst E)). pose proof (cntr_nn a (map oaddr O)). pose proof (cnth_nn a h). lia.
Qed.
Lemma in_open_alone h O E a n us : Inv h O E -> In (a, n, us) O ->
  cnth a h = 0 /\ cntr a (map fst E) = 0.
Proof.
  intros I H. apply in_split in H. destruct H as (O1 & O2 & ->).
  destruct (open_alone h (O1 ++ O2) E a n us).
  - eapply Inv_perm; [symmetry; apply Permutation_middle|reflexivity|exact I].
  - tauto.
Qed.
Lemma cnth_no_slot h a b n k sl i : cnth a h = 0 -> lookup h b = Some (Arr n k sl) ->
  nth_error sl i = Some (Obj (Some a)) -> False.
Proof.
  intros Z L N. apply lookup_nth in L.
  pose proof (cnth_nth a _ _ _ L) as H1. cbn in H1.
  pose proof (cnts_nth a _ _ _ N) as H2. cbn in H2. rewrite Nat.eqb_refl in H2. lia.
Qed.

Lemma sden_frame h h' a sl us : (forall r v, den h r v -> r <> Some a -> den h' r v) ->
  cnts a sl = 0 -> Forall2 (sden h) sl us -> Forall2 (sden h') sl us.
Proof.
  intros FR Z S. induction S as [|s u sl us H S IH]; constructor.
  - destruct H; constructor. apply FR; [assumption|]. intros ->. cbn in Z.
    rewrite Nat.eqb_refl in Z. pose proof (cnts_nn a sl). lia.
  - apply IH. cbn in Z. pose proof (occs_nn a s). pose proof (cnts_nn a sl). lia.
Qed.

(** Work on an open array. *)
Lemma Inv_store h O E a n us n' sl sl' us' E' :
  Inv h ((a, n, us) :: O) E -> lookup h a = Some (Arr 1 n sl) ->
  Forall2 (sden h) sl' us' ->
  (forall r v, In (r, v) E' -> den h r v) ->
  (forall b, cnts b sl' + cntr b (map fst E') = cnts b sl + cntr b (map fst E)) ->
  Inv (store h a (Arr 1 n' sl')) ((a, n', us') :: O) E'.
Proof.
  intros I L S D Q.
  destruct (open_alone _ _ _ _ _ _ I) as (Z1 & Z2 & Z3).
  pose proof (cnth_nth a _ _ _ (proj1 (lookup_nth _ _ _) L)) as Z4. cbn in Z4.
  assert (Z5 : cnts a sl' = 0 /\ cntr a (map fst E') = 0).
  { specialize (Q a). pose proof (cnts_nn a sl). pose proof (cnts_nn a sl'). pose proof (cntr_nn a (map fst E')). lia. }
  assert (FR : forall r v, den h r v -> r <> Some a -> den (store h a (Arr 1 n' sl')) r v).
  { intros r v Hd Hn. apply (den_frame h _ (fun b => b <> a)); auto.
    - intros b c Hb Lb. exists c. rewrite (lookup_store _ _ _ _ _ L).
      destruct (Nat.eqb_spec a b); [congruence|]. split; [assumption|apply sim_refl].
    - intros b m k s i d _ Lb Nb ->. eapply cnth_no_slot; eauto.
    - intros b -> ->. congruence. }
  constructor.
  - intros b. pose proof (I_rc _ _ _ I b) as R. unfold rc in *.
    rewrite (lookup_store _ _ _ _ _ L). rewrite (cnth_store _ _ _ _ _ L). cbn [cntc].
    specialize (Q b). cbn [map cntr] in *. change (oaddr (a, n, us)) with (Some a) in R.
    change (oaddr (a, n', us')) with (Some a).
    destruct (Nat.eqb_spec a b) as [<-|E0].
    + rewrite L in R. cbn [cell_rc] in *. lia.
    + lia.
  - intros b c Lb. rewrite (lookup_store _ _ _ _ _ L) in Lb.
    destruct (Nat.eqb_spec a b) as [<-|E0].
    + injection Lb as <-. cbn. lia.
    + eapply I_pos; eauto.
  - intros r v H. apply FR; [eauto|]. intros ->.
    assert (In (Some a) (map fst E')) by (apply in_map_iff; exists (Some a, v); auto).
    eapply cntr_notin; [|eassumption]. lia.
  - intros b m vs [H|H].
    + injection H as <- <- <-. exists sl'. rewrite (lookup_store _ _ _ _ _ L), Nat.eqb_refl.
      split; [reflexivity|].
      apply (sden_frame h _ a); [exact FR|lia|exact S].
    + destruct (I_open _ _ _ I b m vs (or_intror H)) as (s & Lb & Sb).
      exists s. rewrite (lookup_store _ _ _ _ _ L).
      assert (a <> b).
      { intros <-. apply (cntr_notin _ _ Z3). apply in_map_iff. exists (a, m, vs). auto. }
      destruct (Nat.eqb_spec a b); [congruence|]. split; [assumption|].
      pose proof (cnth_nth a _ _ _ (proj1 (lookup_nth _ _ _) Lb)) as Z7. cbn in Z7.
      apply (sden_frame h _ a); [exact FR|pose proof (cnts_nn a s); lia|exact Sb].
  - intros b c Lb N. rewrite (lookup_store _ _ _ _ _ L) in Lb. cbn in N.
    destruct (Nat.eqb_spec a b) as [<-|E0]; [tauto|].
    destruct (I_den _ _ _ I b c Lb N) as [v Hv]. exists v. apply FR; [assumption|congruence].
Qed.

(** * Elementary steps *)
Lemma incref_ok h O E r v : Inv h O E -> den h r v ->
  (forall a, r = Some a -> ~ In (Some a) (map oaddr O)) ->
  exists h', incref h r = Ok h' /\ Inv h' O ((r, v) :: E) /\
    (forall b c, lookup h b = Some c -> exists c', lookup h' b = Some c' /\ sim c c').
Proof.
  intros I D N. destruct r as [a|].
  2:{ exists h. split; [reflexivity|]. split.
      - inversion D; subst. destruct I as [A B C F G]. constructor; auto.
        intros r v [H|H]; [injection H as <- <-; constructor|auto].
      - intros b c L. exists c. split; [assumption|apply sim_refl]. }
  destruct (den_live _ _ _ D) as [c L]. cbn. rewrite L. eexists. split; [reflexivity|].
  specialize (N a eq_refl).
  assert (SM : forall b c0, lookup h b = Some c0 ->
     exists c', lookup (store h a (set_rc c (cell_rc c + 1))) b = Some c' /\ sim c0 c').
  { intros b c0 Lb. rewrite (lookup_store _ _ _ _ _ L). destruct (Nat.eqb_spec a b) as [<-|].
    - exists (set_rc c (cell_rc c + 1)). split; [reflexivity|]. rewrite L in Lb. injection Lb as <-. apply sim_set.
    - exists c0. split; [assumption|apply sim_refl]. }
  split; [|exact SM].
  assert (FR : forall r v, den h r v -> den (store h a (set_rc c (cell_rc c + 1))) r v).
  { intros r w Hd. apply (den_frame h _ (fun _ => True)); auto. }
  destruct I as [A B C F G]. constructor.
  - intros b. specialize (A b). unfold rc in *. rewrite (lookup_store _ _ _ _ _ L), (cnth_store _ _ _ _ _ L), cntc_set.
    cbn [map fst cntr occ]. rewrite (Nat.eqb_sym b a). destruct (Nat.eqb_spec a b) as [<-|].
    + rewrite L in A. rewrite cell_rc_set. lia.
    + lia.
  - intros b c0 Lb. rewrite (lookup_store _ _ _ _ _ L) in Lb. destruct (Nat.eqb_spec a b) as [<-|].
    + injection Lb as <-. rewrite cell_rc_set. specialize (B a c L). lia.
    + eapply B; eauto.
  - intros r w [H|H]; [injection H as <- <-|]; apply FR; auto.
  - intros b n us H. destruct (F b n us H) as (sl & Lb & S). exists sl.
    rewrite (lookup_store _ _ _ _ _ L). destruct (Nat.eqb_spec a b) as [<-|].
    + exfalso. apply N. apply in_map_iff. exists (a, n, us). auto.
    + split; [assumption|]. clear - S FR. induction S as [|s u]; constructor; auto.
      destruct H; constructor; auto.
  - intros b c0 Lb Hn. rewrite (lookup_store _ _ _ _ _ L) in Lb.
    assert (exists c1, lookup h b = Some c1) as [c1 L1].
    { destruct (Nat.eqb_spec a b) as [<-|]; eauto. }
    destruct (G b c1 L1 Hn) as [w Hw]. exists w. auto.
Qed.

Lemma alloc_leaf_ok h O E z : Inv h O E ->
  Inv (h ++ [Some (Leaf 1 z)]) O ((Some (length h), VLeaf z) :: E).
Proof.
  intros I. 
  assert (LN : lookup h (length h) = None).
  { unfold lookup. now rewrite (proj2 (nth_error_None h (length h)) (Nat.le_refl _)). }
  assert (FR : forall r v, den h r v -> den (h ++ [Some (Leaf 1 z)]) r v).
  { intros r w Hd. apply (den_frame h _ (fun _ => True)); auto.
    intros b c _ L. exists c. rewrite lookup_alloc.
    destruct (Nat.eqb_spec (length h) b) as [<-|]; [congruence|]. split; [assumption|apply sim_refl]. }
  destruct I as [A B C F G]. constructor.
  - intros b. specialize (A b). unfold rc in *. rewrite lookup_alloc, cnth_app. cbn [map fst cntr occ cnth cntc].
    rewrite (Nat.eqb_sym b). destruct (Nat.eqb_spec (length h) b) as [<-|].
    + rewrite LN in A. cbn [cell_rc]. lia.
    + lia.
  - intros b c L. rewrite lookup_alloc in L. destruct (Nat.eqb_spec (length h) b) as [<-|].
    + injection L as <-. cbn. lia.
    + eauto.
  - intros r w [H|H]; [injection H as <- <-|auto]. econstructor. rewrite lookup_alloc, Nat.eqb_refl. reflexivity.
  - intros b n us H. destruct (F b n us H) as (sl & Lb & S). exists sl. rewrite lookup_alloc.
    destruct (Nat.eqb_spec (length h) b) as [<-|]; [congruence|]. split; [assumption|].
    clear - S FR. induction S as [|s u]; constructor; auto. destruct H; constructor; auto.
  - intros b c L Hn. rewrite lookup_alloc in L. destruct (Nat.eqb_spec (length h) b) as [<-|].
    + exists (VLeaf z). econstructor. rewrite lookup_alloc, Nat.eqb_refl. reflexivity.
    + destruct (G b c L Hn) as [w Hw]. exists w. auto.
Qed.

Lemma empty_ok h O E cap : Inv h O E -> 0 <= cap ->
  exists h', empty_node h cap = Ok (length h, h') /\
    Inv h' ((length h, 0%nat, repeat None (Z.to_nat cap)) :: O) E /\
    (forall b c, lookup h b = Some c -> lookup h' b = Some c).
Proof.
  intros I Hc. unfold empty_node. destruct (Z.ltb_spec cap 0) as [HX|_]; [lia|]. cbn [alloc].
  eexists. split; [reflexivity|].
  assert (LN : lookup h (length h) = None).
  { unfold lookup. now rewrite (proj2 (nth_error_None h (length h)) (Nat.le_refl _)). }
  set (c0 := Arr 1 0 (repeat Raw (Z.to_nat cap))).
  assert (LL : forall b c, lookup h b = Some c -> lookup (h ++ [Some c0]) b = Some c).
  { intros b c L. rewrite lookup_alloc. destruct (Nat.eqb_spec (length h) b) as [<-|]; congruence. }
  split; [|exact LL].
  assert (FR : forall r v, den h r v -> den (h ++ [Some c0]) r v).
  { intros r w Hd. apply (den_frame h _ (fun _ => True)); auto.
    intros b c _ L. exists c. split; [auto|apply sim_refl]. }
  destruct I as [A B C F G]. constructor.
  - intros b. specialize (A b). unfold rc in *. rewrite lookup_alloc, cnth_app. cbn [map fst cntr occ cnth cntc oaddr].
    subst c0. cbn [cntc]. rewrite cnts_raw.
    rewrite (Nat.eqb_sym b). destruct (Nat.eqb_spec (length h) b) as [<-|].
    + rewrite LN in A. cbn [cell_rc]. lia.
    + lia.
  - intros b c L. rewrite lookup_alloc in L. destruct (Nat.eqb_spec (length h) b) as [<-|].
    + injection L as <-. cbn. lia.
    + eauto.
  - auto.
  - intros b n us [H|H].
    + injection H as <- <- <-. exists (repeat Raw (Z.to_nat cap)). rewrite lookup_alloc, Nat.eqb_refl.
      split; [reflexivity|].
      generalize (Z.to_nat cap) as k. intros k. induction k; cbn; repeat constructor; auto.
    + destruct (F b n us H) as (sl & Lb & S). exists sl. split; [auto|].
      clear - S FR. induction S as [|s u]; constructor; auto. destruct H; constructor; auto.
  - intros b c L Hn. rewrite lookup_alloc in L. cbn in Hn. destruct (Nat.eqb_spec (length h) b) as [<-|].
    + tauto.
    + destruct (G b c L ltac:(tauto)) as [w Hw]. exists w. auto.
Qed.
(** Dropping references *)
Lemma weight_lset h a o o' : nth_error h a = Some o ->
  (heap_weight (lset h a o') + weight o = heap_weight h + weight o')%nat.
Proof.
  revert a. induction h as [|x h IH]; intros [|a] H; cbn in *; try discriminate.
  - injection H as ->. lia.
  - specialize (IH a H). unfold heap_weight in *. lia.
Qed.
Lemma children_ok n rs js : children (Arr n (length rs) (map Obj rs ++ js)) = Ok rs.
Proof.
  cbn. induction rs as [|r rs IH]; cbn; [reflexivity|]. cbn in IH. rewrite IH. reflexivity.
Qed.
Lemma cnts_junk b js : Forall junk js -> cnts b js = 0.
Proof. induction 1 as [|s js [->| ->] _ IH]; cbn; lia. Qed.
Lemma fst_combine {A B} (l : list A) (m : list B) : length l = length m -> map fst (combine l m) = l.
Proof. revert m. induction l; intros [|b m] H; cbn in *; try lia; [reflexivity|]. rewrite IHl by lia. reflexivity. Qed.
Lemma dens_combine h rs l r v : dens h rs l -> In (r, v) (combine rs l) -> den h r v.
Proof.
  induction 1 as [|r0 v0 rs l D DS IH]; cbn; [easy|]. intros [H|H]; [injection H as <- <-; assumption|auto].
Qed.

Lemma Inv_drop_null h O v E : Inv h O ((None, v) :: E) -> Inv h O E.
Proof.
  intros [A B C F G]. constructor; auto. intros r w H. apply C. now right.
Qed.
Lemma Inv_add_null h O E : Inv h O E -> Inv h O ((None, VNull) :: E).
Proof.
  intros [A B C F G]. constructor; auto. intros r w [H|H]; [injection H as <- <-; constructor|auto].
Qed.

Lemma Inv_dec h O E a v c : Inv h O ((Some a, v) :: E) -> lookup h a = Some c -> cell_rc c <> 1 ->
  Inv (store h a (set_rc c (cell_rc c - 1))) O E.
Proof.
  intros I L N.
  assert (NO : ~ In (Some a) (map oaddr O)).
  { intros H. apply in_map_iff in H. destruct H as ([[b n] us] & Hb & H). cbn in Hb. injection Hb as ->.
    destruct (in_open_alone _ _ _ _ _ _ I H) as [_ X]. cbn in X. rewrite Nat.eqb_refl in X.
    pose proof (cntr_nn a (map fst E)). lia. }
  assert (FR : forall r v, den h r v -> den (store h a (set_rc c (cell_rc c - 1))) r v).
  { intros r w Hd. apply (den_frame h _ (fun _ => True)); auto.
    intros b c0 _ Lb. rewrite (lookup_store _ _ _ _ _ L). destruct (Nat.eqb_spec a b) as [<-|].
    - eexists. split; [reflexivity|]. rewrite L in Lb. injection Lb as <-. apply sim_set.
    - exists c0. split; [assumption|apply sim_refl]. }
  pose proof (I_pos _ _ _ I a c L) as PC.
  destruct I as [A B C F G]. constructor.
  - intros b. specialize (A b). unfold rc in *. rewrite (lookup_store _ _ _ _ _ L), (cnth_store _ _ _ _ _ L), cntc_set.
    cbn [map fst cntr occ] in A. rewrite (Nat.eqb_sym b a) in A.
    destruct (Nat.eqb a b) eqn:QQ; [apply Nat.eqb_eq in QQ; subst b|].
    + rewrite L in A. rewrite cell_rc_set. lia.
    + lia.
  - intros b c0 Lb. rewrite (lookup_store _ _ _ _ _ L) in Lb. destruct (Nat.eqb_spec a b) as [<-|].
    + injection Lb as <-. rewrite cell_rc_set. lia.
    + eapply B; eauto.
  - intros r w H. apply FR, C. now right.
  - intros b n us H. destruct (F b n us H) as (sl & Lb & S). exists sl.
    rewrite (lookup_store _ _ _ _ _ L). destruct (Nat.eqb_spec a b) as [<-|].
    + exfalso. apply NO. apply in_map_iff. exists (a, n, us). auto.
    + split; [assumption|]. clear - S FR. induction S as [|s u]; constructor; auto.
      destruct H; constructor; auto.
  - intros b c0 Lb Hn. rewrite (lookup_store _ _ _ _ _ L) in Lb.
    assert (exists c1, lookup h b = Some c1) as [c1 L1].
    { destruct (Nat.eqb_spec a b) as [<-|]; eauto. }
    destruct (G b c1 L1 Hn) as [w Hw]. exists w. auto.
Qed.

Lemma Inv_free h O E a v c : Inv h O ((Some a, v) :: E) -> lookup h a = Some c -> cell_rc c = 1 ->
  exists T, children c = Ok (map fst T) /\ length T = weight (Some c) /\
    Inv (lset h a None) O (T ++ E).
Proof.
  intros I L N.
  pose proof (I_rc _ _ _ I a) as R. unfold rc in R. rewrite L in R. cbn [map fst cntr] in R.
  rewrite occ_self in R.
  pose proof (cnth_nn a h). pose proof (cntr_nn a (map fst E)). pose proof (cntr_nn a (map oaddr O)).
  assert (ZH : cnth a h = 0) by lia. assert (ZE : cntr a (map fst E) = 0) by lia.
  assert (ZO : cntr a (map oaddr O) = 0) by lia.
  assert (FR : forall r v, den h r v -> r <> Some a -> den (lset h a None) r v).
  { intros r w Hd Hr. apply (den_frame h _ (fun b => b <> a)); auto.
    - intros b c0 Hb Lb. rewrite (lookup_free _ _ _ _ L). destruct (Nat.eqb_spec a b) as [<-|]; [congruence|].
      exists c0. split; [assumption|apply sim_refl].
    - intros b m k s i d _ Lb Nb ->. eapply cnth_no_slot; eauto.
    - intros b -> ->. congruence. }
  pose proof (I_ext _ _ _ I (Some a) v (or_introl eq_refl)) as D.
  assert (exists rs l js, c = Leaf 1 match v with VLeaf z => z | _ => 0 end /\ rs = [] /\ l = [] \/
             c = Arr 1 (length rs) (map Obj rs ++ js) /\ Forall junk js /\ dens h rs l) as (rs & l & js & X).
  { inversion D as [|a0 n z La|a0 n rs js l La J DS]; subst.
    - exists [], [], []. left. rewrite L in La. injection La as ->. cbn in N. subst. auto.
    - exists rs, l, js. right. rewrite L in La. injection La as ->. cbn in N. subst. auto. }
  exists (combine rs l).
  assert (LEN : length rs = length l).
  { destruct X as [(_ & -> & ->)|(_ & _ & DS)]; [reflexivity|]. eapply dens_length; eauto. }
  rewrite fst_combine by assumption.
  assert (CH : children c = Ok rs).
  { destruct X as [(-> & -> & _)|(-> & _ & _)]; [reflexivity|apply children_ok]. }
  assert (CN : forall b, cntc b (Some c) = cntr b rs).
  { intros b. destruct X as [(-> & -> & _)|(-> & J & _)]; [reflexivity|]. cbn [cntc].
    rewrite cnts_app, cnts_obj, (cnts_junk b js J). lia. }
  split; [assumption|]. split.
  { rewrite combine_length, <- LEN, Nat.min_id. destruct X as [(-> & -> & _)|(-> & _ & _)]; reflexivity. }
  assert (ZR : cntr a rs = 0).
  { pose proof (cnth_nth a _ _ _ (proj1 (lookup_nth _ _ _) L)) as Z4. rewrite CN in Z4. pose proof (cntr_nn a rs). lia. }
  assert (DC : forall r w, In (r, w) (combine rs l) -> den h r w).
  { intros r w HI. destruct X as [(_ & -> & ->)|(_ & _ & DS)]; [easy|]. eapply dens_combine; eauto. }
  constructor.
  - intros b. pose proof (I_rc _ _ _ I b) as A. unfold rc in *. rewrite (lookup_free _ _ _ _ L).
    rewrite (cnth_lset b _ _ _ _ (proj1 (lookup_nth _ _ _) L)). rewrite CN. cbn [cntc].
    rewrite map_app, cntr_app, fst_combine by assumption.
    cbn [map fst cntr occ] in A. rewrite (Nat.eqb_sym b a) in A.
    destruct (Nat.eqb a b) eqn:QQ; [apply Nat.eqb_eq in QQ; subst b|].
    + lia.
    + lia.
  - intros b c0 Lb. rewrite (lookup_free _ _ _ _ L) in Lb. destruct (Nat.eqb_spec a b) as [<-|]; [discriminate|].
    eapply I_pos; eauto.
  - intros r w H'. apply in_app_or in H'. destruct H' as [H'|H'].
    + apply FR; [auto|]. intros ->. apply (cntr_notin _ _ ZR). apply in_combine_l in H'. assumption.
    + apply FR; [apply (I_ext _ _ _ I); now right|]. intros ->. apply (cntr_notin _ _ ZE).
      apply in_map_iff. exists (Some a, w). auto.
  - intros b n us H'. destruct (I_open _ _ _ I b n us H') as (sl & Lb & S). exists sl.
    rewrite (lookup_free _ _ _ _ L). destruct (Nat.eqb_spec a b) as [<-|].
    + exfalso. apply (cntr_notin _ _ ZO). apply in_map_iff. exists (a, n, us). auto.
    + split; [assumption|]. apply (sden_frame h _ a); [exact FR| |exact S].
      pose proof (cnth_nth a _ _ _ (proj1 (lookup_nth _ _ _) Lb)) as Z4. cbn in Z4.
      pose proof (cnts_nn a sl). lia.
  - intros b c0 Lb Hn. rewrite (lookup_free _ _ _ _ L) in Lb. destruct (Nat.eqb_spec a b) as [<-|]; [discriminate|].
    destruct (I_den _ _ _ I b c0 Lb Hn) as [w Hw]. exists w. apply FR; [assumption|congruence].
Qed.

Lemma release_ok fuel : forall h O T E, Inv h O (T ++ E) -> (length T + heap_weight h < fuel)%nat ->
  exists h', release fuel (map fst T) h = Ok h' /\ Inv h' O E.
Proof.
  induction fuel as [|fuel IH]; intros h O T E I F; [lia|].
  destruct T as [|[[a|] v] T]; cbn [map fst release].
  - exists h. split; [reflexivity|exact I].
  - destruct (den_live _ _ _ (I_ext _ _ _ I (Some a) v (or_introl eq_refl))) as [c L].
    rewrite L. destruct (Z.eqb_spec (cell_rc c) 1) as [R|R].
    + destruct (Inv_free _ _ _ _ _ _ I L R) as (T' & CH & LT & I').
      rewrite CH. cbn [bind]. rewrite <- map_app. apply IH.
      * rewrite <- app_assoc. exact I'.
      * rewrite app_length. cbn [length] in F.
        pose proof (weight_lset h a _ None (proj1 (lookup_nth _ _ _) L)) as W. cbn [weight] in W, LT. lia.
    + apply IH.
      * eapply Inv_dec; eauto.
      * pose proof (weight_lset h a _ (Some (set_rc c (cell_rc c - 1))) (proj1 (lookup_nth _ _ _) L)) as W.
        cbn [length] in F. unfold store.
        assert (weight (Some (set_rc c (cell_rc c - 1))) = weight (Some c)) by now destruct c. lia.
  - apply IH.
    + eapply Inv_drop_null; exact I.
    + cbn [length] in F. lia.
Qed.

Lemma decref_ok h O E r v : Inv h O ((r, v) :: E) -> exists h', decref h r = Ok h' /\ Inv h' O E.
Proof.
  intros I. unfold decref. apply (release_ok _ h O [(r, v)] E); [exact I|]. cbn [length]. lia.
Qed.

(** * Open arrays *)
Lemma open_slot h O E a n us i u : Inv h ((a, n, us) :: O) E -> nth_error us i = Some u ->
  exists sl s, lookup h a = Some (Arr 1 n sl) /\ Forall2 (sden h) sl us /\ nth_error sl i = Some s /\ sden h s u.
Proof.
  intros I H. destruct (I_open _ _ _ I a n us (or_introl eq_refl)) as (sl & L & S).
  exists sl. clear - H L S.
  assert (exists s, nth_error sl i = Some s /\ sden h s u) as (s & H1 & H2).
  { clear L. revert i H. induction S as [|s u' sl us D S IH]; intros [|i] H; cbn in *; try discriminate.
    - injection H as <-. eauto.
    - auto. }
  eauto 6.
Qed.
Lemma Forall2_lset {A B} (R : A -> B -> Prop) l m i x y : Forall2 R l m -> R x y -> Forall2 R (lset l i x) (lset m i y).
Proof. intros H. revert i. induction H; intros [|i] Hr; cbn; constructor; auto. Qed.

Lemma arr_of_open h a n sl : lookup h a = Some (Arr 1 n sl) -> arr_of h a = Ok (1, n, sl).
Proof. unfold arr_of. now intros ->. Qed.
Lemma rd_nth {A} (l : list A) i x : nth_error l i = Some x -> rd l i = Ok x.
Proof. unfold rd. now intros ->. Qed.

Lemma get_open h O E a n us i v : Inv h ((a, n, us) :: O) E -> nth_error us i = Some (Some v) ->
  exists r, get_slot h a i = Ok r /\ den h r v /\ (forall b, r = Some b -> ~ In (Some b) (map oaddr ((a, n, us) :: O))).
Proof.
  intros I H. destruct (open_slot _ _ _ _ _ _ _ _ I H) as (sl & s & L & S & N & D).
  inversion D as [|r v' D']; subst. exists r. unfold get_slot.
  rewrite (arr_of_open _ _ _ _ L). cbn [bind]. rewrite (rd_nth _ _ _ N). cbn [bind].
  split; [reflexivity|]. split; [assumption|]. intros b -> HI.
  apply in_map_iff in HI. destruct HI as ([[b' n'] us'] & Hb & H'). cbn in Hb. injection Hb as ->.
  destruct (in_open_alone _ _ _ _ _ _ I H') as [Z _]. eapply cnth_no_slot; eauto.
Qed.

Lemma place_ok h O E a n us i r v : Inv h ((a, n, us) :: O) ((r, v) :: E) ->
  (nth_error us i = Some None \/ nth_error us i = Some (Some VNull)) ->
  exists h', place h a i r = Ok h' /\ Inv h' ((a, n, lset us i (Some v)) :: O) E.
Proof.
  intros I H.
  assert (exists u, nth_error us i = Some u /\ (u = None \/ u = Some VNull)) as (u & Hu & U).
  { destruct H; eauto. }
  destruct (open_slot _ _ _ _ _ _ _ _ I Hu) as (sl & s & L & S & N & D).
  unfold place. rewrite (arr_of_open _ _ _ _ L). cbn [bind]. rewrite (rd_nth _ _ _ N). cbn [bind].
  assert (Hs : s = Raw \/ s = Obj None).
  { destruct U as [-> | ->]; inversion D as [|? ? D']; subst; auto. inversion D'; auto. }
  exists (store h a (Arr 1 n (lset sl i (Obj r)))). split.
  - destruct Hs as [-> | ->]; reflexivity.
  - apply (Inv_store h O _ a n us n sl _ _ _ I L).
    + apply Forall2_lset; [assumption|]. constructor. apply (I_ext _ _ _ I). now left.
    + intros r0 v0 HI. apply (I_ext _ _ _ I). now right.
    + intros b. rewrite (cnts_lset _ _ _ _ _ N). cbn [map fst cntr occs].
      assert (occs b s = 0) by (destruct Hs as [-> | ->]; reflexivity). lia.
Qed.

Lemma move_out_ok h O E a n us i v : Inv h ((a, n, us) :: O) E -> nth_error us i = Some (Some v) ->
  exists r h', move_out h a i = Ok (r, h') /\ Inv h' ((a, n, lset us i (Some VNull)) :: O) ((r, v) :: E).
Proof.
  intros I H. destruct (open_slot _ _ _ _ _ _ _ _ I H) as (sl & s & L & S & N & D).
  unfold move_out. rewrite (arr_of_open _ _ _ _ L). cbn [bind]. rewrite (rd_nth _ _ _ N). cbn [bind].
  inversion D as [|r v' D']; subst. eexists. eexists. split; [reflexivity|].
  apply (Inv_store h O _ a n us n sl _ _ _ I L).
  - apply Forall2_lset; [assumption|]. repeat constructor.
  - intros r0 v0 [HI|HI]; [injection HI as <- <-; assumption|]. now apply (I_ext _ _ _ I).
  - intros b. rewrite (cnts_lset _ _ _ _ _ N). cbn [map fst cntr occs occ]. lia.
Qed.

Lemma assign_ok h O E a n us i r v w : Inv h ((a, n, us) :: O) ((r, v) :: E) -> nth_error us i = Some (Some w) ->
  exists h', assign_slot h a i r = Ok h' /\ Inv h' ((a, n, lset us i (Some v)) :: O) E.
Proof.
  intros I H. destruct (open_slot _ _ _ _ _ _ _ _ I H) as (sl & s & L & S & N & D).
  unfold assign_slot. rewrite (arr_of_open _ _ _ _ L). cbn [bind]. rewrite (rd_nth _ _ _ N). cbn [bind].
  inversion D as [|old v' D']; subst. apply decref_ok with (v := w).
  apply (Inv_store h O _ a n us n sl _ _ _ I L).
  - apply Forall2_lset; [assumption|]. constructor. apply (I_ext _ _ _ I). now left.
  - intros r0 v0 [HI|HI]; [injection HI as <- <-; assumption|]. apply (I_ext _ _ _ I). now right.
  - intros b. rewrite (cnts_lset _ _ _ _ _ N). cbn [map fst cntr occs occ]. lia.
Qed.

Lemma destroy_ok h O E a n us i w : Inv h ((a, n, us) :: O) E -> nth_error us i = Some (Some w) ->
  exists h', destroy_slot h a i = Ok h' /\ Inv h' ((a, n, lset us i None) :: O) E.
Proof.
  intros I H. destruct (open_slot _ _ _ _ _ _ _ _ I H) as (sl & s & L & S & N & D).
  unfold destroy_slot. rewrite (arr_of_open _ _ _ _ L). cbn [bind]. rewrite (rd_nth _ _ _ N). cbn [bind].
  inversion D as [|old v' D']; subst. apply decref_ok with (v := w).
  apply (Inv_store h O _ a n us n sl _ _ _ I L).
  - apply Forall2_lset; [assumption|]. constructor.
  - intros r0 v0 [HI|HI]; [injection HI as <- <-; assumption|]. now apply (I_ext _ _ _ I).
  - intros b. rewrite (cnts_lset _ _ _ _ _ N). cbn [map fst cntr occs occ]. lia.
Qed.

Lemma set_size_ok h O E a n us m : Inv h ((a, n, us) :: O) E ->
  exists h', set_size h a m = Ok h' /\ Inv h' ((a, m, us) :: O) E.
Proof.
  intros I. destruct (I_open _ _ _ I a n us (or_introl eq_refl)) as (sl & L & S).
  unfold set_size. rewrite (arr_of_open _ _ _ _ L). cbn [bind]. eexists. split; [reflexivity|].
  apply (Inv_store h O _ a n us m sl _ _ _ I L); auto. intros r v. apply (I_ext _ _ _ I).
Qed.
Lemma size_open h O E a n us : Inv h ((a, n, us) :: O) E -> size_of h a = Ok n.
Proof.
  intros I. destruct (I_open _ _ _ I a n us (or_introl eq_refl)) as (sl & L & S).
  unfold size_of. now rewrite (arr_of_open _ _ _ _ L).
Qed.

(** * From closed to open and back *)
Definition ujunk (u : option val) : Prop := u = None \/ u = Some VNull.
Lemma junk_ujunk h js : Forall junk js -> exists us, Forall2 (sden h) js us /\ Forall ujunk us.
Proof.
  induction 1 as [|s js [->| ->] _ (us & S & U)].
  - exists []. auto.
  - exists (None :: us). split; constructor; auto; [constructor|now left].
  - exists (Some VNull :: us). split; constructor; auto; [repeat constructor|now right].
Qed.
Lemma dens_sden h rs l : dens h rs l -> Forall2 (sden h) (map Obj rs) (map Some l).
Proof. induction 1; cbn; constructor; auto. now constructor. Qed.

Lemma closed_arr h O E a l : Inv h O E -> den h (Some a) (VArr l) ->
  exists k rs js, lookup h a = Some (Arr k (length l) (map Obj rs ++ js)) /\ Forall junk js /\ dens h rs l /\
    length rs = length l.
Proof.
  intros I D. inversion D as [| |a0 n rs js l0 L J DS]; subst.
  pose proof (dens_length _ _ _ DS) as Q. rewrite Q in L. eauto 8.
Qed.
Lemma closed_size h O E a l : Inv h O E -> den h (Some a) (VArr l) -> size_of h a = Ok (length l).
Proof.
  intros I D. destruct (closed_arr _ _ _ _ _ I D) as (k & rs & js & L & _).
  unfold size_of, arr_of. now rewrite L.
Qed.
Lemma closed_cap h O E a l : Inv h O E -> den h (Some a) (VArr l) ->
  exists c, cap_of h a = Ok c /\ (length l <= c)%nat.
Proof.
  intros I D. destruct (closed_arr _ _ _ _ _ I D) as (k & rs & js & L & J & DS & Q).
  unfold cap_of, arr_of. rewrite L. cbn [bind]. eexists. split; [reflexivity|].
  rewrite app_length, map_length. lia.
Qed.
Lemma closed_get h O E a l i v : Inv h O E -> den h (Some a) (VArr l) -> nth_error l i = Some v ->
  exists r, get_slot h a i = Ok r /\ den h r v /\ (forall b, r = Some b -> ~ In (Some b) (map oaddr O)).
Proof.
  intros I D H. destruct (closed_arr _ _ _ _ _ I D) as (k & rs & js & L & J & DS & Q).
  assert (exists r, nth_error rs i = Some r /\ den h r v) as (r & N & Dr).
  { clear - DS H. revert i H. induction DS; intros [|i] H'; cbn in *; try discriminate; eauto.
    injection H' as <-. eauto. }
  assert (NS : nth_error (map Obj rs ++ js) i = Some (Obj r)).
  { rewrite nth_error_app1.
    - now apply map_nth_error.
    - rewrite map_length. apply nth_error_Some. congruence. }
  exists r. unfold get_slot, arr_of. rewrite L. cbn [bind]. rewrite (rd_nth _ _ _ NS). cbn [bind].
  split; [reflexivity|]. split; [assumption|]. intros b -> HI.
  apply in_map_iff in HI. destruct HI as ([[b' n'] us'] & Hb & H'). cbn in Hb. injection Hb as ->.
  destruct (in_open_alone _ _ _ _ _ _ I H') as [Z _]. eapply cnth_no_slot; eauto.
Qed.

Lemma open_ok h O E a l c : Inv h O ((Some a, VArr l) :: E) -> lookup h a = Some c -> cell_rc c = 1 ->
  exists js, Inv h ((a, length l, map Some l ++ js) :: O) E /\ Forall ujunk js /\
             cap_of h a = Ok (length l + length js)%nat.
Proof.
  intros I Lc R.
  pose proof (I_ext _ _ _ I _ _ (or_introl eq_refl)) as D.
  destruct (closed_arr _ _ _ _ _ I D) as (k & rs & js & L & J & DS & Q).
  rewrite L in Lc. injection Lc as <-. cbn in R. subst k.
  destruct (junk_ujunk h js J) as (us & S & U).
  exists us. split; [|split; [assumption|]].
  2:{ unfold cap_of, arr_of. rewrite L. cbn [bind]. rewrite app_length, map_length, Q.
      f_equal. f_equal. clear - S. induction S; cbn; congruence. }
  destruct I as [A B C F G]. constructor.
  - intros b. specialize (A b). cbn [map fst cntr] in *. change (oaddr (a, length l, map Some l ++ us)) with (Some a). lia.
  - exact B.
  - intros r v H. apply C. now right.
  - intros b n vs [H|H]; [|auto]. injection H as <- <- <-.
    exists (map Obj rs ++ js). split; [assumption|]. apply Forall2_app; [now apply dens_sden|assumption].
  - intros b c Lb N. apply (G b c Lb). intros H. apply N. now right.
Qed.

Lemma close_ok h O E a l js : Inv h ((a, length l, map Some l ++ js) :: O) E -> Forall ujunk js ->
  Inv h O ((Some a, VArr l) :: E).
Proof.
  intros I U. 
  destruct (I_open _ _ _ I _ _ _ (or_introl eq_refl)) as (sl & L & S).
  destruct (open_alone _ _ _ _ _ _ I) as (Z1 & Z2 & Z3).
  assert (exists rs j0, sl = map Obj rs ++ j0 /\ dens h rs l /\ Forall junk j0) as (rs & j0 & -> & DS & J).
  { clear - S U. apply Forall2_app_inv_r in S. destruct S as (s1 & s2 & S1 & S2 & ->).
    assert (exists rs, s1 = map Obj rs /\ dens h rs l) as (rs & -> & DS).
    { clear - S1. revert s1 S1. induction l as [|v l IH]; intros s1 S1.
      - inversion S1; subst. exists []. split; [reflexivity|constructor].
      - inversion S1 as [|s0 u0 s1' l1' HS HT]; subst. destruct (IH _ HT) as (rs & -> & D).
        inversion HS as [|r w Dr]; subst. exists (r :: rs). split; [reflexivity|].
        constructor; assumption. }
    exists rs, s2. split; [reflexivity|]. split; [assumption|].
    clear - S2 U. induction S2 as [|s0 u0 s1' l1' HS HT IH]; constructor; inversion U as [|? ? HU HU']; subst; auto.
    destruct HU as [-> | ->]; inversion HS as [|r w Dr]; subst; [now left|]. inversion Dr; now right. }
  assert (D : den h (Some a) (VArr l)).
  { econstructor; [|exact J|exact DS]. rewrite (dens_length _ _ _ DS). exact L. }
  destruct I as [A B C F G]. constructor.
  - intros b. specialize (A b). cbn [map fst cntr] in *. change (oaddr (a, length l, map Some l ++ js)) with (Some a) in A. lia.
  - exact B.
  - intros r v [H|H]; [injection H as <- <-; assumption|auto].
  - intros b n vs H. apply F. now right.
  - intros b c Lb N. destruct (Nat.eq_dec a b) as [<-|E0]; [eauto|].
    apply (G b c Lb). cbn. intros [H|H]; [injection H as H; congruence|tauto].
Qed.

Lemma unique_ok h a c : lookup h a = Some c -> unique h a = Ok (cell_rc c =? 1).
Proof. unfold unique. now intros ->. Qed.
(** * The loops *)
Lemma lset_app {A} (l : list A) x m y : lset (l ++ x :: m) (length l) y = l ++ y :: m.
Proof. apply lset_split. Qed.
Lemma nth_app {A} (l : list A) x m : nth_error (l ++ x :: m) (length l) = Some x.
Proof. rewrite nth_error_app2, Nat.sub_diag; auto. Qed.
Lemma lset_map {A B} (f : A -> B) l x m y :
  lset (map f l ++ x :: m) (length l) (f y) = map f (l ++ [y]) ++ m.
Proof. rewrite <- (map_length f l). rewrite lset_app, map_app, <- app_assoc. reflexivity. Qed.
Lemma nth_map {A B} (f : A -> B) l x m : nth_error (map f l ++ x :: m) (length l) = Some x.
Proof. rewrite <- (map_length f l). apply nth_app. Qed.

Lemma in_not_open h O E r v : Inv h O E -> In (r, v) E ->
  forall a, r = Some a -> ~ In (Some a) (map oaddr O).
Proof.
  intros I H a -> HI. apply in_map_iff in HI. destruct HI as ([[b n] us] & Hb & HI). cbn in Hb. injection Hb as ->.
  destruct (in_open_alone _ _ _ _ _ _ I HI) as [_ Z]. apply (cntr_notin _ _ Z).
  apply in_map_iff. exists (Some a, v). auto.
Qed.
Lemma incref_in h O E r v : Inv h O E -> In (r, v) E ->
  exists h', incref h r = Ok h' /\ Inv h' O ((r, v) :: E).
Proof.
  intros I H. destruct (incref_ok h O E r v I (I_ext _ _ _ I _ _ H) (in_not_open _ _ _ _ _ I H)) as (h' & A & B & _).
  eauto.
Qed.
Lemma incref_den h O E r v : Inv h O E -> den h r v -> (forall a, r = Some a -> ~ In (Some a) (map oaddr O)) ->
  exists h', incref h r = Ok h' /\ Inv h' O ((r, v) :: E).
Proof. intros I D N. destruct (incref_ok h O E r v I D N) as (h' & A & B & _). eauto. Qed.

Ltac step H h := let E := fresh "Q" in destruct H as (h & E & ?); rewrite E; cbn [bind]; clear E.

Lemma copy_loop_ok l2 : forall h O E src dst l1 js,
  In (Some src, VArr (l1 ++ l2)) E ->
  Inv h ((dst, length l1, map Some l1 ++ repeat None (length l2) ++ js) :: O) E ->
  exists h', copy_loop h src dst (length l1) (length l2) = Ok h' /\
    Inv h' ((dst, length (l1 ++ l2), map Some (l1 ++ l2) ++ js) :: O) E.
Proof.
  induction l2 as [|v l2 IH]; intros h O E src dst l1 js HI I; cbn [length repeat copy_loop].
  - exists h. split; [reflexivity|]. rewrite app_nil_r. exact I.
  - destruct (closed_get h _ E src (l1 ++ v :: l2) (length l1) v I (I_ext _ _ _ I _ _ HI) (nth_app _ _ _)) as (r & G & D & N).
    rewrite G. cbn [bind].
    destruct (incref_den _ _ _ _ _ I D N) as (h1 & Q1 & I1). rewrite Q1. cbn [bind].
    destruct (place_ok _ _ _ _ _ _ (length l1) _ _ I1) as (h2 & Q2 & I2).
    { left. cbn [length repeat app]. apply nth_map. }
    rewrite Q2. cbn [bind]. cbn [length repeat app] in I2. rewrite lset_map in I2.
    destruct (set_size_ok _ _ _ _ _ _ (S (length l1)) I2) as (h3 & Q3 & I3). rewrite Q3. cbn [bind].
    replace (S (length l1)) with (length (l1 ++ [v])) in * by (rewrite app_length; cbn; lia).
    destruct (IH h3 O E src dst (l1 ++ [v]) js) as (h4 & Q4 & I4).
    + rewrite <- app_assoc. exact HI.
    + exact I3.
    + exists h4. rewrite <- app_assoc in I4. split; [exact Q4|exact I4].
Qed.

Lemma move_loop_ok l2 : forall h O E src dst n l1 js js',
  Inv h ((src, n, repeat (Some VNull) (length l1) ++ map Some l2 ++ js') ::
         (dst, length l1, map Some l1 ++ repeat None (length l2) ++ js) :: O) E ->
  exists h', move_loop h src dst (length l1) (length l2) = Ok h' /\
    Inv h' ((src, n, repeat (Some VNull) (length (l1 ++ l2)) ++ js') ::
            (dst, length (l1 ++ l2), map Some (l1 ++ l2) ++ js) :: O) E.
Proof.
  induction l2 as [|v l2 IH]; intros h O E src dst n l1 js js' I; cbn [length repeat move_loop].
  - exists h. split; [reflexivity|]. rewrite app_nil_r. exact I.
  - destruct (move_out_ok _ _ _ _ _ _ (length l1) v I) as (r & h1 & Q1 & I1).
    { cbn [map app]. rewrite <- (repeat_length (Some VNull) (length l1)) at 2. apply nth_app. }
    rewrite Q1. cbn [bind].
    assert (I1' := Inv_perm _ _ _ _ _ (perm_swap _ _ _) (Permutation_refl _) I1).
    destruct (place_ok _ _ _ _ _ _ (length l1) _ _ I1') as (h2 & Q2 & I2).
    { left. cbn [length repeat app]. apply nth_map. }
    rewrite Q2. cbn [bind]. cbn [length repeat app] in I2. rewrite lset_map in I2.
    destruct (set_size_ok _ _ _ _ _ _ (S (length l1)) I2) as (h3 & Q3 & I3). rewrite Q3. cbn [bind].
    replace (S (length l1)) with (length (l1 ++ [v])) in * by (rewrite app_length; cbn; lia).
    destruct (IH h3 O E src dst n (l1 ++ [v]) js js') as (h4 & Q4 & I4).
    + eapply Inv_perm; [apply perm_swap|reflexivity|]. 
      replace (repeat (Some VNull) (length (l1 ++ [v])) ++ map Some l2 ++ js')
        with (lset (repeat (Some VNull) (length l1) ++ map Some (v :: l2) ++ js') (length l1) (Some VNull)).
      * exact I3.
      * cbn [map app]. rewrite <- (repeat_length (Some VNull) (length l1)) at 2. rewrite lset_app.
        rewrite app_length. cbn [length]. rewrite repeat_app, <- app_assoc. reflexivity.
    + exists h4. rewrite <- app_assoc in I4. split; [exact Q4|exact I4].
Qed.

Lemma repeat_loop_ok k : forall h O E dst r v l1 js,
  In (r, v) E ->
  Inv h ((dst, length l1, map Some l1 ++ repeat None k ++ js) :: O) E ->
  exists h', repeat_loop h dst r (length l1) k = Ok h' /\
    Inv h' ((dst, length (l1 ++ repeat v k), map Some (l1 ++ repeat v k) ++ js) :: O) E.
Proof.
  induction k as [|k IH]; intros h O E dst r v l1 js HI I; cbn [repeat repeat_loop].
  - exists h. split; [reflexivity|]. rewrite app_nil_r. exact I.
  - destruct (incref_in _ _ _ _ _ I HI) as (h1 & Q1 & I1). rewrite Q1. cbn [bind].
    destruct (place_ok _ _ _ _ _ _ (length l1) _ _ I1) as (h2 & Q2 & I2).
    { left. cbn [repeat app]. apply nth_map. }
    rewrite Q2. cbn [bind]. cbn [repeat app] in I2. rewrite lset_map in I2.
    destruct (set_size_ok _ _ _ _ _ _ (S (length l1)) I2) as (h3 & Q3 & I3). rewrite Q3. cbn [bind].
    replace (S (length l1)) with (length (l1 ++ [v])) in * by (rewrite app_length; cbn; lia).
    destruct (IH h3 O E dst r v (l1 ++ [v]) js HI I3) as (h4 & Q4 & I4).
    exists h4. rewrite <- app_assoc in I4. split; [exact Q4|exact I4].
Qed.

Lemma assign_loop_ok P : forall h O E dst l1 js,
  incl P E ->
  (length P <= length js)%nat -> Forall ujunk js ->
  Inv h ((dst, length l1, map Some l1 ++ js) :: O) E ->
  exists h', assign_loop h dst (length l1) (map fst P) = Ok h' /\
    Inv h' ((dst, length (l1 ++ map snd P), map Some (l1 ++ map snd P) ++ skipn (length P) js) :: O) E.
Proof.
  induction P as [|[r v] P IH]; intros h O E dst l1 js HI HL U I; cbn [map fst snd length skipn assign_loop].
  - exists h. split; [reflexivity|]. rewrite app_nil_r. exact I.
  - destruct (incref_in _ _ _ _ _ I (HI _ (or_introl eq_refl))) as (h1 & Q1 & I1). rewrite Q1. cbn [bind].
    destruct js as [|u js]; cbn [length] in HL; [lia|].
    destruct (place_ok _ _ _ _ _ _ (length l1) _ _ I1) as (h2 & Q2 & I2).
    { rewrite nth_map. inversion U as [|? ? HU HU']; subst. destruct HU as [-> | ->]; auto. }
    rewrite Q2. cbn [bind]. rewrite lset_map in I2.
    destruct (set_size_ok _ _ _ _ _ _ (S (length l1)) I2) as (h3 & Q3 & I3). rewrite Q3. cbn [bind].
    replace (S (length l1)) with (length (l1 ++ [v])) in * by (rewrite app_length; cbn; lia).
    destruct (IH h3 O E dst (l1 ++ [v]) js) as (h4 & Q4 & I4).
    + intros x Hx. apply HI. now right.
    + lia.
    + now inversion U.
    + exact I3.
    + exists h4. rewrite <- app_assoc in I4. split; [exact Q4|exact I4].
Qed.

Lemma init_range_ok P : forall h O E a n us1 js us2,
  incl P E -> length js = length P -> Forall ujunk js ->
  Inv h ((a, n, us1 ++ js ++ us2) :: O) E ->
  exists h', init_range h a (length us1) (map fst P) = Ok h' /\
    Inv h' ((a, n, us1 ++ map Some (map snd P) ++ us2) :: O) E.
Proof.
  induction P as [|[r v] P IH]; intros h O E a n us1 js us2 HI HL U I; cbn [map fst snd length init_range].
  - exists h. split; [reflexivity|]. destruct js; cbn in HL; [|lia]. exact I.
  - destruct (incref_in _ _ _ _ _ I (HI _ (or_introl eq_refl))) as (h1 & Q1 & I1). rewrite Q1. cbn [bind].
    destruct js as [|u js]; cbn [length] in HL; [lia|].
    destruct (place_ok _ _ _ _ _ _ (length us1) _ _ I1) as (h2 & Q2 & I2).
    { cbn [app]. rewrite nth_app. inversion U as [|? ? HU HU']; subst. destruct HU as [-> | ->]; auto. }
    rewrite Q2. cbn [bind]. cbn [app] in I2. rewrite lset_app in I2.
    replace (S (length us1)) with (length (us1 ++ [Some v])) in * by (rewrite app_length; cbn; lia).
    destruct (IH h2 O E a n (us1 ++ [Some v]) js us2) as (h4 & Q4 & I4).
    + intros x Hx. apply HI. now right.
    + lia.
    + now inversion U.
    + rewrite <- app_assoc. exact I2.
    + exists h4. rewrite <- app_assoc in I4. split; [exact Q4|exact I4].
Qed.

Lemma move_left_ok B : forall h O E a n us1 G us2, G <> [] ->
  Inv h ((a, n, us1 ++ map Some G ++ map Some B ++ us2) :: O) E ->
  exists h' G', length G' = length G /\
    move_left h a (length us1) (length us1 + length G) (length B) = Ok h' /\
    Inv h' ((a, n, us1 ++ map Some B ++ map Some G' ++ us2) :: O) E.
Proof.
  induction B as [|b B IH]; intros h O E a n us1 G us2 HG I; cbn [map length move_left].
  - exists h, G. split; [reflexivity|]. split; [reflexivity|exact I].
  - destruct (move_out_ok _ _ _ _ _ _ (length us1 + length G) b I) as (r & h1 & Q1 & I1).
    { rewrite app_assoc. cbn [map app].
      replace (length us1 + length G)%nat with (length (us1 ++ map Some G)) by (rewrite app_length, map_length; lia).
      apply nth_app. }
    rewrite Q1. cbn [bind].
    replace (lset (us1 ++ map Some G ++ map Some (b :: B) ++ us2) (length us1 + length G) (Some VNull))
      with (us1 ++ map Some G ++ Some VNull :: map Some B ++ us2) in I1.
    2:{ cbn [map app]. rewrite !(app_assoc us1).
        replace (length us1 + length G)%nat with (length (us1 ++ map Some G)) by (rewrite app_length, map_length; lia).
        rewrite lset_app. reflexivity. }
    destruct G as [|g G]; [easy|].
    destruct (assign_ok _ _ _ _ _ _ (length us1) _ _ g I1) as (h2 & Q2 & I2).
    { cbn [map app]. apply nth_app. }
    rewrite Q2. cbn [bind]. cbn [map app] in I2. rewrite lset_app in I2.
    destruct (IH h2 O E a n (us1 ++ [Some b]) (G ++ [VNull]) us2) as (h3 & G' & LG & Q3 & I3).
    + destruct G; easy.
    + rewrite map_app. cbn [map]. rewrite <- !app_assoc. cbn [app]. exact I2.
    + exists h3, G'. split; [rewrite LG, app_length; cbn; lia|]. split.
      * rewrite <- Q3. f_equal; rewrite ?app_length; cbn; lia.
      * rewrite <- app_assoc in I3. exact I3.
Qed.

Lemma shrink_ok k : forall h O E a l js, Forall ujunk js -> (k <= length l)%nat ->
  Inv h ((a, length l, map Some l ++ js) :: O) E ->
  exists h' js', shrink h a k = Ok h' /\ Forall ujunk js' /\ length js' = (k + length js)%nat /\
    Inv h' ((a, length l - k, map Some (firstn (length l - k) l) ++ js')%nat :: O) E.
Proof.
  induction k as [|k IH]; intros h O E a l js U HL I; cbn [shrink].
  - exists h, js. rewrite Nat.sub_0_r, firstn_all. auto.
  - rewrite (size_open _ _ _ _ _ _ I). cbn [bind].
    destruct (exists_last (l := l)) as (l0 & v & ->); [destruct l; cbn in HL; [lia|discriminate]|].
    rewrite app_length in *. cbn [length] in *. rewrite Nat.add_1_r in *.
    destruct (destroy_ok _ _ _ _ _ _ (length l0) v I) as (h1 & Q1 & I1).
    { rewrite map_app, <- app_assoc. cbn [map app]. apply nth_map. }
    rewrite Q1. cbn [bind].
    replace (lset (map Some (l0 ++ [v]) ++ js) (length l0) None) with (map Some l0 ++ None :: js) in I1.
    2:{ rewrite map_app, <- app_assoc. cbn [map app]. rewrite <- (map_length Some l0). now rewrite lset_app. }
    destruct (set_size_ok _ _ _ _ _ _ (length l0) I1) as (h2 & Q2 & I2). rewrite Q2. cbn [bind].
    destruct (IH h2 O E a l0 (None :: js)) as (h3 & js' & Q3 & U3 & L3 & I3).
    + constructor; [now left|assumption].
    + lia.
    + exact I2.
    + exists h3, js'. split; [exact Q3|]. split; [assumption|]. split; [cbn [length] in L3; lia|].
      rewrite Nat.sub_succ. rewrite firstn_app.
      replace (length l0 - k - length l0)%nat with 0%nat by lia. cbn [firstn]. rewrite app_nil_r. exact I3.
Qed.

Lemma enlarge_ok k : forall h O E a l js, Forall ujunk js -> (k <= length js)%nat ->
  Inv h ((a, length l, map Some l ++ js) :: O) E ->
  exists h', enlarge h a k = Ok h' /\
    Inv h' ((a, length (l ++ repeat VNull k), map Some (l ++ repeat VNull k) ++ skipn k js) :: O) E.
Proof.
  induction k as [|k IH]; intros h O E a l js U HL I; cbn [enlarge repeat skipn].
  - exists h. rewrite app_nil_r. auto.
  - rewrite (size_open _ _ _ _ _ _ I). cbn [bind].
    destruct js as [|u js]; cbn [length] in HL; [lia|].
    destruct (place_ok _ _ _ _ _ _ (length l) None VNull (Inv_add_null _ _ _ I)) as (h1 & Q1 & I1).
    { rewrite nth_map. inversion U as [|? ? HU HU']; subst. destruct HU as [-> | ->]; auto. }
    rewrite Q1. cbn [bind]. rewrite lset_map in I1.
    destruct (set_size_ok _ _ _ _ _ _ (S (length l)) I1) as (h2 & Q2 & I2). rewrite Q2. cbn [bind].
    replace (S (length l)) with (length (l ++ [VNull])) in * by (rewrite app_length; cbn; lia).
    destruct (IH h2 O E a (l ++ [VNull]) js) as (h3 & Q3 & I3).
    + now inversion U.
    + lia.
    + exact I2.
    + exists h3. rewrite <- app_assoc in I3. split; [exact Q3|exact I3].
Qed.

Lemma repeat_cons_end {A} (x : A) n l : x :: repeat x n ++ l = repeat x n ++ x :: l.
Proof. induction n; cbn; [reflexivity|]. now rewrite IHn. Qed.

Lemma move_right_ok B : forall h O E a n us1 g us2, (0 < g)%nat ->
  Inv h ((a, n, us1 ++ map Some B ++ repeat (Some VNull) g ++ us2) :: O) E ->
  exists h', move_right h a (length us1 + g) (length us1) (length B) = Ok h' /\
    Inv h' ((a, n, us1 ++ repeat (Some VNull) g ++ map Some B ++ us2) :: O) E.
Proof.
  induction B as [|b B IH] using rev_ind; intros h O E a n us1 g us2 HG I.
  - exists h. split; [reflexivity|exact I].
  - rewrite app_length. cbn [length]. rewrite Nat.add_1_r. cbn [move_right].
    rewrite map_app in I. cbn [map] in I. rewrite <- app_assoc in I. cbn [app] in I.
    destruct (move_out_ok _ _ _ _ _ _ (length us1 + length B) b I) as (r & h1 & Q1 & I1).
    { rewrite app_assoc.
      replace (length us1 + length B)%nat with (length (us1 ++ map Some B)) by (rewrite app_length, map_length; lia).
      apply nth_app. }
    rewrite Q1. cbn [bind].
    replace (lset (us1 ++ map Some B ++ Some b :: repeat (Some VNull) g ++ us2) (length us1 + length B) (Some VNull))
      with (us1 ++ map Some B ++ repeat (Some VNull) g ++ Some VNull :: us2) in I1.
    2:{ rewrite <- repeat_cons_end. rewrite !(app_assoc us1).
        replace (length us1 + length B)%nat with (length (us1 ++ map Some B)) by (rewrite app_length, map_length; lia).
        rewrite lset_app. reflexivity. }
    destruct (assign_ok _ _ _ _ _ _ (length us1 + g + length B) _ _ VNull I1) as (h2 & Q2 & I2).
    { rewrite !app_assoc. 
      replace (length us1 + g + length B)%nat with (length ((us1 ++ map Some B) ++ repeat (Some VNull) g))
        by (rewrite !app_length, map_length, repeat_length; lia).
      apply nth_app. }
    rewrite Q2. cbn [bind].
    replace (lset (us1 ++ map Some B ++ repeat (Some VNull) g ++ Some VNull :: us2) (length us1 + g + length B) (Some b))
      with (us1 ++ map Some B ++ repeat (Some VNull) g ++ Some b :: us2) in I2.
    2:{ rewrite !app_assoc.
        replace (length us1 + g + length B)%nat with (length ((us1 ++ map Some B) ++ repeat (Some VNull) g))
          by (rewrite !app_length, map_length, repeat_length; lia).
        rewrite lset_app. reflexivity. }
    destruct (IH h2 O E a n us1 g (Some b :: us2) HG I2) as (h3 & Q3 & I3).
    exists h3. split; [exact Q3|]. rewrite map_app, <- app_assoc. cbn [map app]. exact I3.
Qed.

(** * Making an array one's own *)
Definition arr_val (v : val) (l : list val) : Prop := v = VNull /\ l = [] \/ v = VArr l.

Lemma ujunk_repeat n : Forall ujunk (repeat None n).
Proof. induction n; cbn; constructor; auto. now left. Qed.
Lemma ujunk_repeat_null n : Forall ujunk (repeat (Some VNull) n).
Proof. induction n; cbn; constructor; auto. now right. Qed.

Lemma switch_ok h O E d v l cap : arr_val v l -> Inv h O ((d, v) :: E) -> Z.of_nat (length l) <= cap ->
  exists p h' js, switch_container h d cap = Ok (p, h') /\ Forall ujunk js /\
    Z.of_nat (length l + length js) = cap /\
    Inv h' ((p, length l, map Some l ++ js) :: O) E.
Proof.
  intros AV I HC. destruct AV as [[-> ->] | ->].
  - pose proof (I_ext _ _ _ I _ _ (or_introl eq_refl)) as D. inversion D; subst. cbn [switch_container].
    apply Inv_drop_null in I. destruct (empty_ok _ _ _ cap I) as (h' & Q & I' & _); [cbn in HC; lia|].
    exists (length h), h', (repeat None (Z.to_nat cap)). split; [exact Q|]. split; [apply ujunk_repeat|].
    split; [rewrite repeat_length; cbn in *; lia|]. exact I'.
  - pose proof (I_ext _ _ _ I _ _ (or_introl eq_refl)) as D.
    destruct d as [a|]; [|inversion D]. cbn [switch_container].
    destruct (den_live _ _ _ D) as [c Lc]. rewrite (unique_ok _ _ _ Lc). cbn [bind].
    destruct (Z.eqb_spec (cell_rc c) 1) as [R|R].
    + unfold move_from. rewrite (closed_size _ _ _ _ _ I D). cbn [bind].
      destruct (Z.ltb_spec cap (Z.of_nat (length l))) as [X|_]; [lia|].
      destruct (open_ok _ _ _ _ _ _ I Lc R) as (js & I1 & U1 & _).
      destruct (empty_ok _ _ _ cap I1 ltac:(lia)) as (h2 & Q2 & I2 & _). rewrite Q2. cbn [bind].
      set (p := length h) in *.
      destruct (move_loop_ok l h2 O E a p (length l) [] (repeat None (Z.to_nat cap - length l)) js) as (h3 & Q3 & I3).
      { cbn [length repeat app map]. rewrite <- repeat_app.
        replace (length l + (Z.to_nat cap - length l))%nat with (Z.to_nat cap) by lia.
        eapply Inv_perm; [apply perm_swap|reflexivity|exact I2]. }
      cbn [length] in Q3. rewrite Q3. cbn [bind]. cbn [app] in I3.
      destruct (set_size_ok _ _ _ _ _ _ 0 I3) as (h4 & Q4 & I4). rewrite Q4. cbn [bind].
      pose proof (close_ok _ _ _ a [] _ I4) as I5.
      destruct (decref_ok _ _ _ _ _ (I5 ltac:(apply Forall_app; split; [apply ujunk_repeat_null|assumption]))) as (h6 & Q6 & I6).
      rewrite Q6. cbn [bind]. exists p, h6, (repeat None (Z.to_nat cap - length l)).
      split; [reflexivity|]. split; [apply ujunk_repeat|]. split; [rewrite repeat_length; lia|]. exact I6.
    + unfold copy_from. rewrite (closed_size _ _ _ _ _ I D). cbn [bind].
      destruct (Z.ltb_spec cap (Z.of_nat (length l))) as [X|_]; [lia|].
      destruct (empty_ok _ _ _ cap I ltac:(lia)) as (h2 & Q2 & I2 & _). rewrite Q2. cbn [bind].
      set (p := length h) in *.
      destruct (copy_loop_ok l h2 O ((Some a, VArr l) :: E) a p [] (repeat None (Z.to_nat cap - length l))) as (h3 & Q3 & I3).
      { now left. }
      { cbn [length map app]. rewrite <- repeat_app.
        replace (length l + (Z.to_nat cap - length l))%nat with (Z.to_nat cap) by lia. exact I2. }
      cbn [length] in Q3. rewrite Q3. cbn [bind]. cbn [app] in I3.
      destruct (decref_ok _ _ _ _ _ I3) as (h6 & Q6 & I6).
      rewrite Q6. cbn [bind]. exists p, h6, (repeat None (Z.to_nat cap - length l)).
      split; [reflexivity|]. split; [apply ujunk_repeat|]. split; [rewrite repeat_length; lia|]. exact I6.
Qed.

Lemma cow_ok h O E d v l : arr_val v l -> Inv h O ((d, v) :: E) ->
  exists p h' js, cow h d = Ok (p, h') /\ Forall ujunk js /\
    Inv h' ((p, length l, map Some l ++ js) :: O) E /\
    (forall a, d = Some a -> cap_of h a = Ok (length l + length js)%nat).
Proof.
  intros AV I. pose proof (I_ext _ _ _ I _ _ (or_introl eq_refl)) as D. destruct d as [a|].
  - assert (v = VArr l) as -> by (destruct AV as [[-> _] | ->]; [inversion D|reflexivity]).
    cbn [cow]. destruct (den_live _ _ _ D) as [c Lc]. rewrite (unique_ok _ _ _ Lc). cbn [bind].
    destruct (closed_cap _ _ _ _ _ I D) as (cp & Hc & Lcp). rewrite Hc. cbn [bind].
    destruct (Z.eqb_spec (cell_rc c) 1) as [R|R]; cbn [negb].
    + destruct (open_ok _ _ _ _ _ _ I Lc R) as (js & I1 & U1 & C1).
      exists a, h, js. split; [reflexivity|]. split; [assumption|]. split; [assumption|].
      intros a0 [= <-]. exact C1.
    + destruct (switch_ok h O E (Some a) (VArr l) l (Z.of_nat cp)) as (p & h' & js & Q & U & LL & I'); auto; [lia|].
      exists p, h', js. split; [exact Q|]. split; [assumption|]. split; [assumption|].
      intros a0 [= <-]. rewrite Hc. f_equal. lia.
  - assert (v = VNull /\ l = []) as [-> ->] by (destruct AV as [X | ->]; [exact X|inversion D]).
    destruct (switch_ok h O E None VNull [] init_size) as (p & h' & js & Q & U & LL & I'); auto; [unfold init_size; cbn; lia|].
    exists p, h', js. split; [exact Q|]. split; [assumption|]. split; [assumption|]. discriminate.
Qed.

Lemma cow_extra_ok h O E d v l k : arr_val v l -> Inv h O ((d, v) :: E) ->
  exists p h' js, cow_extra h d k = Ok (p, h') /\ Forall ujunk js /\ (k <= length js)%nat /\
    Inv h' ((p, length l, map Some l ++ js) :: O) E.
Proof.
  intros AV I. pose proof (I_ext _ _ _ I _ _ (or_introl eq_refl)) as D. destruct d as [a|].
  - assert (v = VArr l) as -> by (destruct AV as [[-> _] | ->]; [inversion D|reflexivity]).
    cbn [cow_extra]. rewrite (closed_size _ _ _ _ _ I D). cbn [bind].
    destruct (closed_cap _ _ _ _ _ I D) as (cp & Hc & Lcp). rewrite Hc. cbn [bind].
    destruct (Z.of_nat cp >=? Z.of_nat (length l) + Z.of_nat k) eqn:X.
    + destruct (cow_ok h O E (Some a) (VArr l) l) as (p & h' & js & Q & U & I' & C); auto.
      exists p, h', js. split; [exact Q|]. split; [assumption|]. split; [|assumption].
      specialize (C a eq_refl). rewrite Hc in C. injection C as C. lia.
    + destruct (switch_ok h O E (Some a) (VArr l) l
        (Z.max (Z.of_nat cp * inc_factor) (Z.of_nat (length l) + Z.of_nat k))) as (p & h' & js & Q & U & LL & I'); auto; [lia|].
      exists p, h', js. split; [exact Q|]. split; [assumption|]. split; [lia|assumption].
  - assert (v = VNull /\ l = []) as [-> ->] by (destruct AV as [X | ->]; [exact X|inversion D]).
    destruct (switch_ok h O E None VNull [] (Z.max init_size (Z.of_nat k))) as (p & h' & js & Q & U & LL & I'); auto; [cbn; unfold init_size; lia|].
    exists p, h', js. split; [exact Q|]. split; [assumption|]. split; [cbn in LL; lia|assumption].
Qed.
(** * Calls *)
Definition R (s : st) (vals : list val) : Prop :=
  length (vars s) = length vals /\ Inv (hp s) [] (combine (vars s) vals).

Lemma rd_inv {A} (l : list A) i x : rd l i = Ok x -> nth_error l i = Some x.
Proof. unfold rd. destruct (nth_error l i); [congruence|discriminate]. Qed.
Lemma rd_cases {A} (l : list A) i : (exists x, rd l i = Ok x /\ nth_error l i = Some x) \/ rd l i = OOB.
Proof. unfold rd. destruct (nth_error l i); eauto. Qed.
Lemma nth_lt {A B} (l : list A) (m : list B) x v : length l = length m -> nth_error m x = Some v ->
  exists r, nth_error l x = Some r.
Proof.
  intros L N. destruct (nth_error l x) eqn:X; [eauto|]. apply nth_error_None in X.
  assert (nth_error m x <> None) by congruence. apply nth_error_Some in H. lia.
Qed.
Lemma in_combine_nth {A B} (l : list A) (m : list B) x r v : nth_error l x = Some r -> nth_error m x = Some v ->
  In (r, v) (combine l m).
Proof.
  revert m x. induction l as [|a l IH]; intros [|b m] [|x] H1 H2; cbn in *; try discriminate.
  - left. congruence.
  - right. eauto.
Qed.
Lemma combine_app {A B} (l l' : list A) (m m' : list B) : length l = length m ->
  combine (l ++ l') (m ++ m') = combine l m ++ combine l' m'.
Proof. revert m. induction l as [|a l IH]; intros [|b m] H; cbn in *; try lia; [reflexivity|]. rewrite IH by lia. reflexivity. Qed.

Lemma vars_split (vs : list ref) (vals : list val) x v : length vs = length vals -> nth_error vals x = Some v ->
  exists d rest, nth_error vs x = Some d /\ Permutation (combine vs vals) ((d, v) :: rest) /\
    (forall r w, Permutation ((r, w) :: rest) (combine (lset vs x r) (lset vals x w))) /\
    (forall y r w, y <> x -> nth_error vs y = Some r -> nth_error vals y = Some w -> In (r, w) rest).
Proof.
  intros L N. destruct (nth_lt vs vals x v L N) as [d Nd].
  destruct (nth_error_split _ _ N) as (A' & B' & -> & LA').
  destruct (nth_error_split _ _ Nd) as (A & B & -> & LA).
  assert (LAA : length A = length A') by lia.
  exists d, (combine A A' ++ combine B B'). split; [assumption|].
  split; [rewrite combine_app by assumption; cbn; symmetry; apply Permutation_middle|].
  split.
  - intros r w. rewrite <- LA at 1. rewrite lset_split. rewrite <- LA'. rewrite lset_split.
    rewrite combine_app by assumption. cbn. apply Permutation_middle.
  - intros y r w NE H1 H2. apply in_or_app. 
    destruct (Nat.lt_ge_cases y x).
    + left. rewrite nth_error_app1 in H1, H2 by lia. eapply in_combine_nth; eauto.
    + right. rewrite nth_error_app2 in H1, H2 by lia.
      replace (y - length A)%nat with (S (y - S x)) in H1 by lia.
      replace (y - length A')%nat with (S (y - S x)) in H2 by lia.
      cbn in H1, H2. eapply in_combine_nth; eauto.
Qed.

Lemma set_var_ok h vs vals x r w v : length vs = length vals -> nth_error vals x = Some v ->
  Inv h [] ((r, w) :: combine vs vals) ->
  exists s, set_var h vs x r = Ok s /\ R s (lset vals x w).
Proof.
  intros L N I. destruct (vars_split vs vals x v L N) as (d & rest & Nd & P & Q & _).
  unfold set_var. rewrite (rd_nth _ _ _ Nd). cbn [bind].
  destruct (decref_ok h [] ((r, w) :: rest) d v) as (h' & E & I').
  { eapply Inv_E; [|exact I]. rewrite P. apply perm_swap. }
  rewrite E. cbn [bind]. eexists. split; [reflexivity|]. split; cbn [vars hp].
  - rewrite !lset_length. assumption.
  - eapply Inv_E; [apply Q|exact I'].
Qed.

Definition agrees (s : st) (vals : list val) (o : op) : Prop :=
  match exec_v vals o with
  | Ok (vals', b) => exists s', step s o = Ok (s', b) /\ R s' vals'
  | Exn e => exists s', step s o = Ok (s', Raised e) /\ R s' vals
  | _ => True
  end.

Lemma arr_v_cases vs vals x h : length vs = length vals -> Inv h [] (combine vs vals) ->
  (exists v, nth_error vals x = Some v /\ nth_error vs x = Some None /\ v = VNull /\
     arr_v vals x = Ok None /\ var_arr h vs x = Ok None) \/
  (exists a l, nth_error vals x = Some (VArr l) /\ nth_error vs x = Some (Some a) /\
     arr_v vals x = Ok (Some l) /\ var_arr h vs x = Ok (Some a) /\ den h (Some a) (VArr l)) \/
  (exists z, nth_error vals x = Some (VLeaf z) /\ arr_v vals x = Exn TypeError /\ var_arr h vs x = Exn TypeError) \/
  arr_v vals x = OOB.
Proof.
  intros L I. unfold arr_v, var_arr.
  destruct (rd_cases vals x) as [(v & E & N) | E]; rewrite E; cbn [bind]; [|auto].
  destruct (nth_lt _ _ _ _ L N) as [d Nd].
  pose proof (I_ext _ _ _ I d v (in_combine_nth _ _ _ _ _ Nd N)) as D.
  rewrite (rd_nth _ _ _ Nd). cbn [bind]. destruct v.
  - inversion D; subst. left. eauto 10.
  - inversion D as [|? ? ? LL|]; subst. rewrite LL. eauto 10.
  - inversion D as [| |? ? ? ? ? LL]; subst. rewrite LL. right. left. eauto 10.
Qed.

Lemma step_exn s o e : exec s o = Exn e -> step s o = Ok (s, Raised e).
Proof. unfold step. now intros ->. Qed.
Lemma step_okr s o p : exec s o = Ok p -> step s o = Ok p.
Proof. unfold step. now intros ->. Qed.

Lemma finish h vs vals x rest p w : length vs = length vals ->
  (forall r w, Permutation ((r, w) :: rest) (combine (lset vs x r) (lset vals x w))) ->
  Inv h [] ((p, w) :: rest) -> R (mkst h (lset vs x p)) (lset vals x w).
Proof.
  intros L P I. split; cbn [vars hp].
  - rewrite !lset_length. assumption.
  - eapply Inv_E; [apply P|exact I].
Qed.

(** The calls that build a new value and store it in a variable. *)
Lemma set_v_cases vals x w : (exists v, nth_error vals x = Some v /\ set_v vals x w = Ok (lset vals x w, Done)) \/ set_v vals x w = OOB.
Proof. unfold set_v. destruct (rd_cases vals x) as [(v & E & N) | E]; rewrite E; cbn [bind]; eauto. Qed.

Lemma create_repeated_ok h O E n r v : Inv h O E -> In (r, v) E -> 0 <= n ->
  exists h', create_repeated h n r = Ok (length h, h') /\
    Inv h' ((length h, Z.to_nat n, map Some (repeat v (Z.to_nat n)) ++ []) :: O) E.
Proof.
  intros I HI Hn. unfold create_repeated.
  destruct (empty_ok _ _ _ n I Hn) as (h1 & Q1 & I1 & _). rewrite Q1. cbn [bind].
  destruct (repeat_loop_ok (Z.to_nat n) h1 O E (length h) r v [] []) as (h2 & Q2 & I2).
  - exact HI.
  - cbn [length map app]. rewrite app_nil_r. exact I1.
  - cbn [length] in Q2. rewrite Q2. cbn [bind]. eexists. split; [reflexivity|].
    cbn [app] in I2. rewrite repeat_length in I2. exact I2.
Qed.

Lemma push_back_ok h O E d v l item w : arr_val v l -> Inv h O ((d, v) :: E) ->
  (forall p, exists r, item p = Ok r /\ In (r, w) E) ->
  exists p h', push_back h d item = Ok (p, h') /\ Inv h' O ((Some p, VArr (l ++ [w])) :: E).
Proof.
  intros AV I HI. unfold push_back.
  destruct (cow_extra_ok h O E d v l 1 AV I) as (p & h1 & js & Q1 & U & LJ & I1). rewrite Q1. cbn [bind].
  rewrite (size_open _ _ _ _ _ _ I1). cbn [bind].
  destruct (set_size_ok _ _ _ _ _ _ (S (length l)) I1) as (h2 & Q2 & I2). rewrite Q2. cbn [bind].
  destruct (HI p) as (r & Qr & Hr). rewrite Qr. cbn [bind].
  destruct (incref_in _ _ _ _ _ I2 Hr) as (h3 & Q3 & I3). rewrite Q3. cbn [bind].
  destruct js as [|u js]; cbn [length] in LJ; [lia|].
  destruct (place_ok _ _ _ _ _ _ (length l) _ _ I3) as (h4 & Q4 & I4).
  { rewrite nth_map. inversion U as [|? ? HU HU']; subst. destruct HU as [-> | ->]; auto. }
  rewrite Q4. cbn [bind]. eexists _, _. split; [reflexivity|]. rewrite lset_map in I4.
  apply (close_ok h4 O E p (l ++ [w]) js).
  - rewrite app_length. cbn [length]. rewrite Nat.add_1_r. exact I4.
  - now inversion U.
Qed.

Lemma increfs_ok P : forall h O E, incl P E -> Inv h O E ->
  exists h', increfs h (map fst P) = Ok h' /\ Inv h' O (P ++ E).
Proof.
  induction P as [|[r v] P IH]; intros h O E HI I; cbn [map fst increfs].
  - exists h. auto.
  - destruct (incref_in _ _ _ _ _ I (HI _ (or_introl eq_refl))) as (h1 & Q1 & I1). rewrite Q1. cbn [bind].
    destruct (IH h1 O ((r, v) :: E)) as (h2 & Q2 & I2); [|exact I1|].
    + intros p Hp. right. apply HI. now right.
    + exists h2. split; [exact Q2|]. eapply Inv_E; [|exact I2]. cbn. symmetry. apply Permutation_middle.
Qed.
Lemma decrefs_ok P : forall h O E, Inv h O (P ++ E) -> exists h', decrefs h (map fst P) = Ok h' /\ Inv h' O E.
Proof.
  induction P as [|[r v] P IH]; intros h O E I; cbn [map fst decrefs].
  - exists h. auto.
  - destruct (decref_ok _ _ _ _ _ I) as (h1 & Q1 & I1). rewrite Q1. cbn [bind]. apply IH. exact I1.
Qed.
Lemma rds_ok vs vals ys : length vs = length vals -> forall m, rds_v vals ys = Ok m ->
  exists P, rds vs ys = Ok (map fst P) /\ map snd P = m /\ incl P (combine vs vals).
Proof.
  intros L. induction ys as [|y ys IH]; intros m H; cbn in *.
  - injection H as <-. exists []. repeat split. intros x [].
  - destruct (rd_cases vals y) as [(v & E & N) | E]; rewrite E in H; cbn [bind] in H; [|discriminate].
    destruct (rds_v vals ys) as [m'| | |]; cbn [bind] in H; try discriminate. injection H as <-.
    destruct (IH m' eq_refl) as (P & Q & <- & HI). destruct (nth_lt _ _ _ _ L N) as [r Nr].
    rewrite (rd_nth _ _ _ Nr). cbn [bind]. rewrite Q. cbn [bind].
    exists ((r, v) :: P). repeat split. intros p [<-|Hp]; [eapply in_combine_nth; eauto|auto].
Qed.

(** * The callback *)
Lemma den_fun h : forall r v, den h r v -> forall w, den h r w -> v = w.
Proof.
  apply (den_mut h (fun r v _ => forall w, den h r w -> v = w) (fun rs l _ => forall m, dens h rs m -> l = m)).
  - intros w D. now inversion D.
  - intros a n z L w D. inversion D; subst; congruence.
  - intros a n rs js l L J DS IH w D. inversion D as [| |a0 n0 rs0 js0 l0 L0 J0 DS0]; subst; [congruence|].
    rewrite L in L0. injection L0 as <- LE EQ.
    assert (map Obj rs = map Obj rs0) as EM.
    { apply (f_equal (firstn (length rs))) in EQ. rewrite !firstn_app, !map_length in EQ.
      rewrite <- LE, Nat.sub_diag in EQ. cbn [firstn] in EQ. rewrite !app_nil_r in EQ.
      rewrite !firstn_all2 in EQ by (rewrite map_length; lia). exact EQ. }
    assert (rs = rs0) as <-.
    { clear - EM. revert rs0 EM. induction rs as [|r rs IH]; intros [|r0 rs0] EM; cbn in *; try discriminate; auto.
      injection EM as <- EM. f_equal. auto. }
    f_equal. auto.
  - intros m D. now inversion D.
  - intros r v rs l D IH1 DS IH2 m D'. inversion D'; subst. f_equal; auto.
Qed.

Definition knows (vs : list ref) (vals : list val) (f : kind -> action) (E : list (ref * val)) : Prop :=
  forall k y w, f k = Use y -> nth_error vals y = Some w -> exists r, nth_error vs y = Some r /\ In (r, w) E.

Lemma call_ok h O E vs vals f r v : Inv h O ((r, v) :: E) -> knows vs vals f E ->
  match act vals f v with
  | Ok w => exists r' h', call h vs f r = Ok (Some r', h') /\ Inv h' O ((r', w) :: E)
  | Exn e => e = UserError 0 /\ exists h', call h vs f r = Ok (None, h') /\ Inv h' O E
  | _ => True
  end.
Proof.
  intros I K. pose proof (I_ext _ _ _ I _ _ (or_introl eq_refl)) as D.
  assert (KD : kind_of h r = Ok (kind_v v)).
  { inversion D; subst; cbn; try rewrite H; reflexivity. }
  unfold act, call. rewrite KD. cbn [bind]. destruct (f (kind_v v)) as [|y|z|] eqn:F.
  - destruct (incref_in _ _ _ _ _ I (or_introl eq_refl)) as (h1 & Q1 & I1). rewrite Q1. cbn [bind].
    destruct (decref_ok _ _ _ _ _ I1) as (h2 & Q2 & I2). rewrite Q2. cbn [bind]. eauto.
  - destruct (rd_cases vals y) as [(w & Ew & N) | Ew]; rewrite Ew; [|exact Logic.I].
    destruct (K _ _ _ F N) as (r' & Nr & HI). rewrite (rd_nth _ _ _ Nr). cbn [bind].
    destruct (incref_in _ _ _ _ _ I (or_intror HI)) as (h1 & Q1 & I1). rewrite Q1. cbn [bind].
    destruct (decref_ok h1 O ((r', w) :: E) r v) as (h2 & Q2 & I2).
    { eapply Inv_E; [|exact I1]. apply perm_swap. }
    rewrite Q2. cbn [bind]. eauto.
  - cbn [alloc]. pose proof (alloc_leaf_ok _ _ _ z I) as I1.
    destruct (decref_ok (h ++ [Some (Leaf 1 z)]) O ((Some (length h), VLeaf z) :: E) r v) as (h2 & Q2 & I2).
    { eapply Inv_E; [|exact I1]. apply perm_swap. }
    rewrite Q2. cbn [bind]. eauto.
  - destruct (decref_ok _ _ _ _ _ I) as (h2 & Q2 & I2). rewrite Q2. cbn [bind]. eauto.
Qed.

Lemma mutate_loop_ok vs vals f l2 : forall h O E a n l1 js m,
  knows vs vals f E -> map_v vals f l2 = Ok m ->
  Inv h ((a, n, map Some l1 ++ map Some l2 ++ js) :: O) E ->
  exists h', mutate_loop h vs f a (length l1) (length l2) = Ok (true, h') /\
    Inv h' ((a, n, map Some (l1 ++ m) ++ js) :: O) E.
Proof.
  induction l2 as [|v l2 IH]; intros h O E a n l1 js m K M I; cbn [length mutate_loop map_v] in *.
  - injection M as <-. exists h. rewrite app_nil_r. auto.
  - destruct (move_out_ok _ _ _ _ _ _ (length l1) v I) as (r & h1 & Q1 & I1).
    { cbn [map app]. apply nth_map. }
    rewrite Q1. cbn [bind]. cbn [map app] in I1.
    pose proof (call_ok _ _ _ vs vals f _ _ I1 K) as C.
    destruct (act vals f v) as [w| | |]; cbn [bind] in M; try discriminate.
    destruct (map_v vals f l2) as [m'| | |]; cbn [bind] in M; try discriminate. injection M as <-.
    destruct C as (r' & h2 & Q2 & I2). rewrite Q2. cbn [bind].
    destruct (assign_ok _ _ _ _ _ _ (length l1) _ _ VNull I2) as (h3 & Q3 & I3).
    { rewrite <- (map_length Some l1). rewrite lset_app. apply nth_app. }
    rewrite Q3. cbn [bind].
    replace (lset (lset (map Some l1 ++ Some v :: map Some l2 ++ js) (length l1) (Some VNull)) (length l1) (Some w))
      with (map Some (l1 ++ [w]) ++ map Some l2 ++ js) in I3.
    2:{ rewrite lset_map, (map_app Some l1 [VNull]), <- (app_assoc (map Some l1)). cbn [map app].
        rewrite lset_map. reflexivity. }
    replace (S (length l1)) with (length (l1 ++ [w])) by (rewrite app_length; cbn; lia).
    destruct (IH h3 O E a n (l1 ++ [w]) js m' K eq_refl I3) as (h4 & Q4 & I4).
    exists h4. rewrite <- app_assoc in I4. auto.
Qed.

Lemma same_as_eq r s : same_as r s = true -> r = s.
Proof.
  destruct r, s; cbn; try discriminate; auto. intros H. apply Nat.eqb_eq in H. congruence.
Qed.

Lemma scan_loop_ok vs vals f l2 : forall h O E a l1,
  knows vs vals f E -> In (Some a, VArr (l1 ++ l2)) E -> Inv h O E ->
  (map_v vals f l2 = OOB \/ map_v vals f l2 = OutOfFuel) \/
  (exists h', scan_loop h vs f a (length l1) (length l2) = Ok (None, h') /\ Inv h' O E /\ map_v vals f l2 = Ok l2) \/
  (exists h' i, scan_loop h vs f a (length l1) (length l2) = Ok (Some (i, None), h') /\ Inv h' O E /\
     map_v vals f l2 = Exn (UserError 0)) \/
  (exists h' c u l3 w r', l2 = c ++ u :: l3 /\
     scan_loop h vs f a (length l1) (length l2) = Ok (Some (length (l1 ++ c), Some r'), h') /\
     Inv h' O ((r', w) :: E) /\
     map_v vals f l2 = let! m := map_v vals f l3 in Ok (c ++ w :: m)).
Proof.
  induction l2 as [|v l2 IH]; intros h O E a l1 K HI I; cbn [length scan_loop map_v].
  - right. left. exists h. auto.
  - destruct (closed_get h _ E a (l1 ++ v :: l2) (length l1) v I (I_ext _ _ _ I _ _ HI) (nth_app _ _ _)) as (r & G & D & N).
    rewrite G. cbn [bind].
    destruct (incref_den _ _ _ _ _ I D N) as (h1 & Q1 & I1). rewrite Q1. cbn [bind].
    pose proof (call_ok _ _ _ vs vals f _ _ I1 K) as C.
    destruct (act vals f v) as [w|e| |]; cbn [bind]; auto.
    + destruct C as (r' & h2 & Q2 & I2). rewrite Q2. cbn [bind].
      destruct (closed_get h2 _ _ a (l1 ++ v :: l2) (length l1) v I2 (I_ext _ _ _ I2 _ _ (or_intror HI)) (nth_app _ _ _)) as (r2 & G2 & D2 & N2).
      rewrite G2. cbn [bind]. destruct (same_as r' r2) eqn:SA.
      * apply same_as_eq in SA. subst r2.
        assert (v = w) as <- by (eapply den_fun; [exact D2|]; apply (I_ext _ _ _ I2); now left).
        destruct (decref_ok _ _ _ _ _ I2) as (h3 & Q3 & I3). rewrite Q3. cbn [bind].
        replace (S (length l1)) with (length (l1 ++ [v])) by (rewrite app_length; cbn; lia).
        destruct (IH h3 O E a (l1 ++ [v]) K) as [[X|X]|[X|[X|X]]]; auto.
        -- rewrite <- app_assoc. exact HI.
        -- left. left. rewrite X. reflexivity.
        -- left. right. rewrite X. reflexivity.
        -- destruct X as (h4 & Q4 & I4 & M). rewrite Q4, M. cbn [bind]. right. left. eauto.
        -- destruct X as (h4 & i & Q4 & I4 & M). rewrite Q4, M. cbn [bind]. right. right. left. eauto.
        -- destruct X as (h4 & c & u & l3 & w & r0 & -> & Q4 & I4 & M). rewrite Q4, M.
           right. right. right. exists h4, (v :: c), u, l3, w, r0. split; [reflexivity|].
           rewrite <- app_assoc. cbn [app]. split; [reflexivity|]. split; [assumption|].
           destruct (map_v vals f l3); reflexivity.
      * right. right. right. exists h2, [], v, l2, w, r'. rewrite app_nil_r. cbn [app]. auto.
    + destruct C as (-> & h2 & Q2 & I2). rewrite Q2. cbn [bind]. right. right. left. eauto.
Qed.

Lemma map_loop_ok vs vals f l2 : forall h O E a out n l1 k1,
  knows vs vals f E -> In (Some a, VArr (l1 ++ l2)) E -> length k1 = length l1 ->
  Inv h ((out, n, map Some (k1 ++ repeat VNull (length l2)) ++ []) :: O) E ->
  match map_v vals f l2 with
  | Ok m => exists h', map_loop h vs f a out (length l1) (length l2) = Ok (true, h') /\
      Inv h' ((out, n, map Some (k1 ++ m) ++ []) :: O) E
  | Exn e => e = UserError 0 /\ exists h' k, map_loop h vs f a out (length l1) (length l2) = Ok (false, h') /\
      Inv h' ((out, n, map Some k ++ []) :: O) E /\ length k = (length l1 + length l2)%nat
  | _ => True
  end.
Proof.
  induction l2 as [|v l2 IH]; intros h O E a out n l1 k1 K HI LK I; cbn [length map_loop map_v repeat] in *.
  - exists h. auto.
  - destruct (closed_get h _ E a (l1 ++ v :: l2) (length l1) v I (I_ext _ _ _ I _ _ HI) (nth_app _ _ _)) as (r & G & D & N).
    rewrite G. cbn [bind].
    destruct (incref_den _ _ _ _ _ I D N) as (h1 & Q1 & I1). rewrite Q1. cbn [bind].
    pose proof (call_ok _ _ _ vs vals f _ _ I1 K) as C.
    destruct (act vals f v) as [w|e| |]; cbn [bind]; auto.
    + destruct C as (r' & h2 & Q2 & I2). rewrite Q2. cbn [bind].
      destruct (assign_ok _ _ _ _ _ _ (length l1) _ _ VNull I2) as (h3 & Q3 & I3).
      { rewrite map_app, <- app_assoc. cbn [map app]. rewrite <- LK. apply nth_map. }
      rewrite Q3. cbn [bind].
      replace (lset (map Some (k1 ++ VNull :: repeat VNull (length l2)) ++ []) (length l1) (Some w))
        with (map Some ((k1 ++ [w]) ++ repeat VNull (length l2)) ++ []) in I3.
      2:{ rewrite (map_app _ k1), <- (app_assoc (map Some k1)). cbn [map app]. rewrite <- LK, lset_map.
          rewrite (map_app _ (k1 ++ [w])), <- app_assoc. reflexivity. }
      replace (S (length l1)) with (length (l1 ++ [v])) by (rewrite app_length; cbn; lia).
      specialize (IH h3 O E a out n (l1 ++ [v]) (k1 ++ [w]) K).
      rewrite <- app_assoc in IH. specialize (IH HI ltac:(rewrite !app_length; cbn; lia) I3).
      destruct (map_v vals f l2) as [m|e| |]; cbn [bind]; auto.
      * destruct IH as (h4 & Q4 & I4). exists h4. rewrite <- app_assoc in I4. auto.
      * destruct IH as (-> & h4 & k & Q4 & I4 & LL). split; [reflexivity|]. exists h4, k.
        rewrite app_length in LL. cbn in LL. split; [exact Q4|]. split; [exact I4|]. lia.
    + destruct C as (-> & h2 & Q2 & I2). rewrite Q2. cbn [bind]. split; [reflexivity|].
      eexists h2, _. split; [reflexivity|]. split; [exact I2|]. rewrite app_length. cbn. rewrite repeat_length. lia.
Qed.

Lemma init_from_ok c : forall h O E dst n src l1 rest js us2,
  In (Some src, VArr (l1 ++ c ++ rest)) E -> length js = length c -> Forall ujunk js ->
  Inv h ((dst, n, map Some l1 ++ js ++ us2) :: O) E ->
  exists h', init_from h dst src (length l1) (length c) = Ok h' /\
    Inv h' ((dst, n, map Some (l1 ++ c) ++ us2) :: O) E.
Proof.
  induction c as [|v c IH]; intros h O E dst n src l1 rest js us2 HI LJ U I; cbn [length init_from].
  - exists h. destruct js; cbn in LJ; [|lia]. rewrite app_nil_r. auto.
  - destruct (closed_get h _ E src (l1 ++ v :: c ++ rest) (length l1) v I (I_ext _ _ _ I _ _ HI) (nth_app _ _ _)) as (r & G & D & N).
    rewrite G. cbn [bind].
    destruct (incref_den _ _ _ _ _ I D N) as (h1 & Q1 & I1). rewrite Q1. cbn [bind].
    destruct js as [|u js]; cbn [length] in LJ; [lia|].
    destruct (place_ok _ _ _ _ _ _ (length l1) _ _ I1) as (h2 & Q2 & I2).
    { cbn [app]. rewrite nth_map. inversion U as [|? ? HU HU']; subst. destruct HU as [-> | ->]; auto. }
    rewrite Q2. cbn [bind]. cbn [app] in I2. rewrite lset_map in I2.
    replace (S (length l1)) with (length (l1 ++ [v])) by (rewrite app_length; cbn; lia).
    destruct (IH h2 O E dst n src (l1 ++ [v]) rest js us2) as (h3 & Q3 & I3).
    + rewrite <- app_assoc. exact HI.
    + lia.
    + now inversion U.
    + exact I2.
    + exists h3. rewrite <- app_assoc in I3. auto.
Qed.
Lemma map_helper_ok h E a l vs vals f : Inv h [] ((Some a, VArr l) :: E) -> knows vs vals f E ->
  match map_v vals f l with
  | Ok m => exists r h', map_helper h vs (Some a) f = Ok (Some r, h') /\ Inv h' [] ((r, VArr m) :: E)
  | Exn e => e = UserError 0 /\
      (unique h a = Ok false -> exists h', map_helper h vs (Some a) f = Ok (None, h') /\ Inv h' [] E)
  | _ => True
  end.
Proof.
  intros I K. pose proof (I_ext _ _ _ I _ _ (or_introl eq_refl)) as D.
  assert (K' : knows vs vals f ((Some a, VArr l) :: E)).
  { intros k y w F N. destruct (K k y w F N) as (r & A & B). exists r. split; [assumption|now right]. }
  cbn [map_helper]. rewrite (closed_size _ _ _ _ _ I D). cbn [bind].
  destruct (den_live _ _ _ D) as [c Lc]. rewrite (unique_ok _ _ _ Lc). cbn [bind].
  destruct (Z.eqb_spec (cell_rc c) 1) as [RC|RC].
  - destruct (map_v vals f l) as [m|e| |] eqn:M; auto.
    + destruct (open_ok _ _ _ _ _ _ I Lc RC) as (js & I1 & U1 & _).
      destruct (mutate_loop_ok vs vals f l h [] E a (length l) [] js m K M I1) as (h2 & Q2 & I2).
      cbn [length] in Q2. rewrite Q2. cbn [bind]. eexists _, _. split; [reflexivity|].
      eapply close_ok; [|exact U1]. cbn [app] in I2.
      assert (LM : length m = length l).
      { clear - M. revert m M. induction l as [|x l IH]; cbn; intros m M; [injection M as <-; reflexivity|].
        destruct (act vals f x); cbn [bind] in M; try discriminate.
        destruct (map_v vals f l); cbn [bind] in M; try discriminate. injection M as <-. cbn. f_equal. auto. }
      rewrite LM. exact I2.
    + split; [|discriminate].
      clear - M. induction l as [|x l IH]; cbn in M; [discriminate|].
      destruct (act vals f x) as [w|e0| |] eqn:A; cbn [bind] in M; try discriminate.
      * destruct (map_v vals f l); cbn [bind] in M; try discriminate. auto.
      * injection M as <-. unfold act in A. destruct (f (kind_v x)); try discriminate; try congruence.
        unfold rd in A. destruct (nth_error vals y); discriminate.
  - destruct (scan_loop_ok vs vals f l h [] _ a [] K' (or_introl eq_refl) I) as [[X|X]|[X|[X|X]]].
    + rewrite X. exact Logic.I.
    + rewrite X. exact Logic.I.
    + destruct X as (h1 & Q1 & I1 & M). rewrite M. cbn [length] in Q1. rewrite Q1. cbn [bind]. eauto.
    + destruct X as (h1 & i & Q1 & I1 & M). rewrite M. cbn [length] in Q1. rewrite Q1. cbn [bind].
      split; [reflexivity|]. intros _. destruct (decref_ok _ _ _ _ _ I1) as (h2 & Q2 & I2). rewrite Q2. cbn [bind]. eauto.
    + destruct X as (h1 & cc & u & l3 & w & r' & -> & Q1 & I1 & M). cbn [length app] in Q1. rewrite Q1. cbn [bind].
      rewrite M. clear M Q1.
      destruct (create_repeated_ok h1 [] ((None, VNull) :: (r', w) :: (Some a, VArr (cc ++ u :: l3)) :: E)
        (Z.of_nat (length (cc ++ u :: l3))) None VNull) as (h2 & Q2 & I2).
      { apply Inv_add_null. exact I1. }
      { now left. }
      { lia. }
      rewrite Q2. cbn [bind]. apply Inv_drop_null in I2. rewrite Nat2Z.id in I2.
      set (out := length h1) in *. set (n := length (cc ++ u :: l3)) in *.
      assert (Hn : n = (length cc + S (length l3))%nat) by (unfold n; rewrite app_length; reflexivity).
      destruct (init_from_ok cc h2 [] ((r', w) :: (Some a, VArr (cc ++ u :: l3)) :: E) out n a [] (u :: l3)
        (repeat (Some VNull) (length cc)) (repeat (Some VNull) (S (length l3)))) as (h3 & Q3 & I3).
      { right. left. reflexivity. }
      { apply repeat_length. }
      { apply ujunk_repeat_null. }
      { cbn [map app]. rewrite <- repeat_app, <- Hn.
        replace (repeat (Some VNull) n) with (map Some (repeat VNull n) ++ []); [exact I2|].
        rewrite app_nil_r. clear. induction n; cbn; congruence. }
      cbn [length] in Q3. rewrite Q3. cbn [bind]. cbn [app] in I3.
      destruct (assign_ok _ _ _ _ _ _ (length cc) _ _ VNull I3) as (h4 & Q4 & I4).
      { cbn [repeat]. apply nth_map. }
      rewrite Q4. cbn [bind]. cbn [repeat] in I4. rewrite lset_map in I4.
      pose proof (map_loop_ok vs vals f l3 h4 [] ((Some a, VArr (cc ++ u :: l3)) :: E) a out n (cc ++ [u]) (cc ++ [w]) K') as ML.
      replace (n - S (length cc))%nat with (length l3) by lia.
      replace (S (length cc)) with (length (cc ++ [u])) by (rewrite app_length; cbn; lia).
      rewrite <- app_assoc in ML. cbn [app] in ML. specialize (ML (or_introl eq_refl)).
      rewrite !app_length in ML. specialize (ML eq_refl).
      rewrite app_length.
      assert (I4' : Inv h4 [(out, n, map Some ((cc ++ [w]) ++ repeat VNull (length l3)) ++ [])] ((Some a, VArr (cc ++ u :: l3)) :: E)).
      { rewrite (map_app _ (cc ++ [w])), app_nil_r.
        replace (map Some (repeat VNull (length l3))) with (repeat (Some VNull) (length l3)); [exact I4|].
        clear. induction (length l3); cbn; congruence. }
      specialize (ML I4').
      destruct (map_v vals f l3) as [m|e| |] eqn:M; cbn [bind]; auto.
      * destruct ML as (h5 & Q5 & I5). rewrite Q5. cbn [bind].
        assert (LM : length m = length l3).
        { clear - M. revert m M. induction l3 as [|x l IH]; cbn; intros m M; [injection M as <-; reflexivity|].
          destruct (act vals f x); cbn [bind] in M; try discriminate.
          destruct (map_v vals f l); cbn [bind] in M; try discriminate. injection M as <-. cbn. f_equal. auto. }
        rewrite <- app_assoc in I5. cbn [app] in I5.
        assert (I6 : Inv h5 [] ((Some out, VArr (cc ++ w :: m)) :: (Some a, VArr (cc ++ u :: l3)) :: E)).
        { eapply close_ok; [|constructor]. replace (length (cc ++ w :: m)) with n; [exact I5|].
          rewrite app_length. cbn. lia. }
        destruct (decref_ok h5 [] ((Some out, VArr (cc ++ w :: m)) :: E) (Some a) (VArr (cc ++ u :: l3))) as (h6 & Q6 & I7).
        { eapply Inv_E; [apply perm_swap|exact I6]. }
        rewrite Q6. cbn [bind]. eauto.
      * destruct ML as (-> & h5 & k & Q5 & I5 & LK). split; [reflexivity|]. intros _. rewrite Q5. cbn [bind].
        assert (I6 : Inv h5 [] ((Some out, VArr k) :: (Some a, VArr (cc ++ u :: l3)) :: E)).
        { eapply close_ok; [|constructor]. replace (length k) with n; [exact I5|].
          cbn [length] in *. lia. }
        destruct (decref_ok _ _ _ _ _ I6) as (h6 & Q6 & I7). rewrite Q6. cbn [bind].
        destruct (decref_ok _ _ _ _ _ I7) as (h8 & Q8 & I8). rewrite Q8. cbn [bind]. eauto.
Qed.

Lemma concat_loop_ok m2 : forall h E src m1 lhs v l,
  In (Some src, VArr (m1 ++ m2)) E -> arr_val v l -> Inv h [] ((lhs, v) :: E) ->
  exists r h', concat_loop h lhs src (length m1) (length m2) = Ok (r, h') /\
    Inv h' [] ((r, match m2 with [] => v | _ => VArr (l ++ m2) end) :: E).
Proof.
  induction m2 as [|u m2 IH]; intros h E src m1 lhs v l HI AV I; cbn [length concat_loop].
  - eauto.
  - destruct (closed_get h _ _ src (m1 ++ u :: m2) (length m1) u I (I_ext _ _ _ I _ _ (or_intror HI)) (nth_app _ _ _)) as (r & G & D & N).
    rewrite G. cbn [bind].
    destruct (incref_den _ _ _ _ _ I D N) as (h1 & Q1 & I1). rewrite Q1. cbn [bind].
    destruct (push_back_ok h1 [] ((r, u) :: E) lhs v l (fun _ => Ok r) u AV) as (p & h2 & Q2 & I2).
    { eapply Inv_E; [apply perm_swap|exact I1]. }
    { intros p. exists r. split; [reflexivity|now left]. }
    rewrite Q2. cbn [bind].
    destruct (decref_ok h2 [] ((Some p, VArr (l ++ [u])) :: E) r u) as (h3 & Q3 & I3).
    { eapply Inv_E; [apply perm_swap|exact I2]. }
    rewrite Q3. cbn [bind].
    replace (S (length m1)) with (length (m1 ++ [u])) by (rewrite app_length; cbn; lia).
    destruct (IH h3 E src (m1 ++ [u]) (Some p) (VArr (l ++ [u])) (l ++ [u])) as (r4 & h4 & Q4 & I4).
    + rewrite <- app_assoc. exact HI.
    + now right.
    + exact I3.
    + exists r4, h4. split; [exact Q4|]. destruct m2; [exact I4|]. rewrite <- app_assoc in I4. exact I4.
Qed.

(** * Every call *)
Ltac spec_rd vals y :=
  let w := fresh "w" in let E := fresh "E" in let N := fresh "N" in
  destruct (rd_cases vals y) as [(w & E & N) | E]; rewrite E; cbn [bind]; [|exact Logic.I].

(** A variable that receives a reference built on the side. *)
Lemma agree_set h vs vals vals0 x r w s o : length vs = length vals ->
  Inv h [] ((r, w) :: combine vs vals) ->
  exec s o = (let! s := set_var h vs x r in done s) ->
  match set_v vals x w with
  | Ok (vals', b) => exists s', step s o = Ok (s', b) /\ R s' vals'
  | Exn e => exists s', step s o = Ok (s', Raised e) /\ R s' vals0
  | _ => True
  end.
Proof.
  intros L I X. destruct (set_v_cases vals x w) as [(v & N & E) | E]; rewrite E; [|exact Logic.I].
  destruct (set_var_ok h vs vals x r w v L N I) as (s' & Q & RR).
  exists s'. split; [|exact RR]. apply step_okr. rewrite X, Q. reflexivity.
Qed.

(** A variable whose array is replaced by one that has been worked on. *)
Lemma agree_arr h vs vals x v p l js rest s o : length vs = length vals -> nth_error vals x = Some v ->
  (forall r w, Permutation ((r, w) :: rest) (combine (lset vs x r) (lset vals x w))) ->
  Inv h [(p, length l, map Some l ++ js)] rest -> Forall ujunk js ->
  exec s o = Ok (mkst h (lset vs x (Some p)), Done) ->
  match set_v vals x (VArr l) with
  | Ok (vals', b) => exists s', step s o = Ok (s', b) /\ R s' vals'
  | Exn e => exists s', step s o = Ok (s', Raised e) /\ R s' vals
  | _ => True
  end.
Proof.
  intros L N P I U X. destruct (set_v_cases vals x (VArr l)) as [(v' & N' & E) | E]; rewrite E; [|exact Logic.I].
  eexists. split; [apply step_okr; exact X|].
  eapply finish; eauto. eapply close_ok; eauto.
Qed.

Definition list_eq_nil_dec {A} (l : list A) : {l = []} + {l <> []}.
Proof. destruct l; [left; reflexivity|right; discriminate]. Defined.

Lemma nth_map' {A B} (f : A -> B) l x m i : length l = i -> nth_error (map f l ++ x :: m) i = Some x.
Proof. intros <-. apply nth_map. Qed.
Lemma lset_map' {A B} (f : A -> B) l x m y i : length l = i ->
  lset (map f l ++ x :: m) i (f y) = map f (l ++ [y]) ++ m.
Proof. intros <-. apply lset_map. Qed.

Lemma firstn_repeat {A} (x : A) n m : firstn n (repeat x m) = repeat x (Nat.min n m).
Proof. revert m. induction n; intros [|m]; cbn; auto. f_equal. auto. Qed.

Ltac arr_cases h vs vals x L I :=
  let v := fresh "v" in let N := fresh "N" in let Nd := fresh "Nd" in let Ea := fresh "Ea" in let Em := fresh "Em" in
  let a := fresh "a" in let l := fresh "l" in let D := fresh "D" in let z := fresh "z" in
  destruct (arr_v_cases vs vals x h L I)
    as [(v & N & Nd & -> & Ea & Em)|[(a & l & N & Nd & Ea & Em & D)|[(z & N & Ea & Em)|Ea]]];
  unfold list_v; rewrite ?Ea; cbn [bind]; [| | |exact Logic.I].
Ltac same h vs := exists (mkst h vs); split; [|split; assumption].
Ltac ex := cbn [exec hp vars].

Lemma skipn_plus {A} i j (l : list A) : skipn i (skipn j l) = skipn (j + i) l.
Proof. revert l. induction j; intros l; [reflexivity|]. destruct l; cbn; [apply skipn_nil|apply IHj]. Qed.
Lemma erase_region_ok h O E p l js i j : (i < j <= length l)%nat -> Forall ujunk js ->
  Inv h ((p, length l, map Some l ++ js) :: O) E ->
  exists h1 h2 js', move_left h p i j (length l - j) = Ok h1 /\ shrink h1 p (j - i) = Ok h2 /\ Forall ujunk js' /\
    Inv h2 ((p, length (firstn i l ++ skipn j l), map Some (firstn i l ++ skipn j l) ++ js') :: O) E.
Proof.
  intros H U I.
  assert (El : l = firstn i l ++ firstn (j - i) (skipn i l) ++ skipn j l).
  { rewrite <- (firstn_skipn i l) at 1. f_equal. rewrite <- (firstn_skipn (j - i) (skipn i l)) at 1. f_equal.
    rewrite skipn_plus. f_equal. lia. }
  set (A := firstn i l) in *. set (G := firstn (j - i) (skipn i l)) in *. set (B := skipn j l) in *.
  assert (LA : length A = i) by (apply firstn_length_le; lia).
  assert (LG : length G = (j - i)%nat) by (apply firstn_length_le; rewrite skipn_length; lia).
  assert (LB : length B = (length l - j)%nat) by apply skipn_length.
  destruct (move_left_ok B h O E p (length l) (map Some A) G js) as (h1 & G' & LG' & Q1 & I1).
  { intros X. rewrite X in LG. cbn in LG. lia. }
  { rewrite El in I at 2. rewrite !map_app, <- !app_assoc in I. exact I. }
  rewrite map_length, LA, LG, LB in Q1. replace (i + (j - i))%nat with j in Q1 by lia.
  destruct (shrink_ok (j - i) h1 O E p (A ++ B ++ G') js U) as (h2 & js' & Q2 & U2 & _ & I2).
  { rewrite !app_length. lia. }
  { replace (length (A ++ B ++ G')) with (length l) by (rewrite !app_length; lia).
    rewrite !map_app, <- !app_assoc. exact I1. }
  exists h1, h2, js'. split; [exact Q1|]. split; [exact Q2|]. split; [exact U2|].
  replace (length (A ++ B ++ G') - (j - i))%nat with (length (A ++ B)) in I2 by (rewrite !app_length; lia).
  rewrite app_assoc, firstn_app, Nat.sub_diag, firstn_all in I2. cbn [firstn] in I2. rewrite app_nil_r in I2.
  exact I2.
Qed.

Lemma firstn_ujunk n js : Forall ujunk js -> Forall ujunk (skipn n js).
Proof.
  revert js. induction n; intros js U; cbn; [assumption|]. destruct js; [assumption|]. apply IHn. now inversion U.
Qed.
Lemma arr_v_some vals x l : arr_v vals x = Ok (Some l) -> nth_error vals x = Some (VArr l).
Proof.
  unfold arr_v. destruct (rd_cases vals x) as [(v & E & N) | E]; rewrite E; cbn [bind]; [|discriminate].
  destruct v; try discriminate. intros [= <-]. exact N.
Qed.
Lemma lset_none {A} (l : list A) x v : nth_error l x = Some v -> lset l x v = l.
Proof. apply lset_same. Qed.

(** [x = y[i]] *)
Lemma agree_get h vs vals a l x i v s o : length vs = length vals -> Inv h [] (combine vs vals) ->
  den h (Some a) (VArr l) -> nth_error l i = Some v ->
  exec s o = (let! r := get_slot h a i in let! h := incref h r in let! s := set_var h vs x r in done s) ->
  match set_v vals x v with
  | Ok (vals', b) => exists s', step s o = Ok (s', b) /\ R s' vals'
  | Exn e => exists s', step s o = Ok (s', Raised e) /\ R s' vals
  | _ => True
  end.
Proof.
  intros L I D Ni X. destruct (closed_get h _ _ a l i v I D Ni) as (r & G & Dr & NO).
  destruct (incref_den _ _ _ _ _ I Dr NO) as (h1 & Q1 & I1).
  apply (agree_set h1 vs vals _ x r v _ _ L I1). rewrite X, G. cbn [bind]. rewrite Q1. reflexivity.
Qed.

Lemma exec_ok s vals o : R s vals -> tame vals o -> agrees s vals o.
Proof.
  destruct s as [h vs]. intros [L I] T. unfold agrees. cbn [vars hp] in L, I.
  destruct o; cbn [exec_v].
  - (* New *)
    apply (agree_set (h ++ [Some (Leaf 1 z)]) vs vals _ x (Some (length h)) (VLeaf z) _ _ L (alloc_leaf_ok _ _ _ z I)).
    reflexivity.
  - (* NewArr *)
    destruct (empty_ok _ _ _ init_size I ltac:(discriminate)) as (h1 & Q1 & I1 & _).
    apply (agree_set h1 vs vals _ x (Some (length h)) (VArr []) _ _ L).
    + eapply close_ok with (l := []); [exact I1|apply ujunk_repeat].
    + cbn [exec hp vars]. rewrite Q1. reflexivity.
  - (* Repeat *)
    spec_rd vals y. destruct (nth_lt _ _ _ _ L N) as [r Nr].
    destruct (Z.ltb_spec n 0) as [Hn|Hn].
    + exists (mkst h vs). split; [|split; assumption]. apply step_exn. cbn [exec hp vars]. rewrite (rd_nth _ _ _ Nr). cbn [bind].
      unfold create_repeated, empty_node. destruct (Z.ltb_spec n 0); [reflexivity|lia].
    + destruct (create_repeated_ok h [] _ n r w I (in_combine_nth _ _ _ _ _ Nr N) Hn) as (h1 & Q1 & I1).
      apply (agree_set h1 vs vals _ x (Some (length h)) _ _ _ L).
      * eapply close_ok with (js := []); [|constructor]. rewrite repeat_length. exact I1.
      * cbn [exec hp vars]. rewrite (rd_nth _ _ _ Nr). cbn [bind]. rewrite Q1. reflexivity.
  - (* Copy *)
    spec_rd vals y. destruct (nth_lt _ _ _ _ L N) as [r Nr].
    destruct (incref_in _ _ _ _ _ I (in_combine_nth _ _ _ _ _ Nr N)) as (h1 & Q1 & I1).
    apply (agree_set h1 vs vals _ x r w _ _ L I1).
    cbn [exec hp vars]. rewrite (rd_nth _ _ _ Nr). cbn [bind]. rewrite Q1. reflexivity.
  - (* Move *)
    spec_rd vals y. destruct (vars_split vs vals y w L N) as (r & rest & Nr & P1 & P2 & _).
    apply (agree_set h (lset vs y None) (lset vals y VNull) _ x r w).
    + rewrite !lset_length. exact L.
    + eapply Inv_E; [|apply Inv_add_null; eapply Inv_E; [exact P1|exact I]].
      rewrite <- (P2 None VNull). apply perm_swap.
    + cbn [exec hp vars]. rewrite (rd_nth _ _ _ Nr). reflexivity.
  - (* Drop *)
    apply (agree_set h vs vals _ x None VNull _ _ L (Inv_add_null _ _ _ I)). reflexivity.
  - (* Push *)
    cbn [tame] in T.
    arr_cases h vs vals x L I.
    + spec_rd vals y. destruct (nth_lt _ _ _ _ L N0) as [r Nr].
      destruct (vars_split vs vals x _ L N) as (d & rest & Nd' & P1 & P2 & P3).
      rewrite Nd in Nd'. injection Nd' as <-.
      destruct (push_back_ok h [] rest None VNull [] (item_of vs x y) w) as (p & h1 & Q1 & I1).
      { left. auto. }
      { eapply Inv_E; [exact P1|exact I]. }
      { intros p. exists r. split; [|eapply P3; eauto].
        unfold item_of. apply rd_nth. rewrite nth_lset_ne by assumption. assumption. }
      destruct (set_v_cases vals x (VArr ([] ++ [w]))) as [(v' & N' & Es) | Es]; rewrite Es; [|exact Logic.I].
      eexists. split; [apply step_okr; cbn [exec hp vars]; rewrite Em; cbn [bind]; rewrite Q1; reflexivity|].
      eapply finish; eauto.
    + spec_rd vals y. destruct (nth_lt _ _ _ _ L N0) as [r Nr].
      destruct (vars_split vs vals x _ L N) as (d & rest & Nd' & P1 & P2 & P3).
      rewrite Nd in Nd'. injection Nd' as <-.
      destruct (push_back_ok h [] rest (Some a) (VArr l) l (item_of vs x y) w) as (p & h1 & Q1 & I1).
      { right. auto. }
      { eapply Inv_E; [exact P1|exact I]. }
      { intros p. exists r. split; [|eapply P3; eauto].
        unfold item_of. apply rd_nth. rewrite nth_lset_ne by assumption. assumption. }
      destruct (set_v_cases vals x (VArr (l ++ [w]))) as [(v' & N' & Es) | Es]; rewrite Es; [|exact Logic.I].
      eexists. split; [apply step_okr; cbn [exec hp vars]; rewrite Em; cbn [bind]; rewrite Q1; reflexivity|].
      eapply finish; eauto.
    + exists (mkst h vs). split; [|split; assumption]. apply step_exn. cbn [exec hp vars]. rewrite Em. reflexivity.
  - (* Insert *)
    cbn [tame] in T. arr_cases h vs vals x L I.
    + same h vs. apply step_okr. ex. rewrite Em. reflexivity.
    + spec_rd vals y. destruct (nth_lt _ _ _ _ L N0) as [r Nr].
      destruct (Nat.ltb_spec (length l) i) as [Hi|Hi]; [exact Logic.I|].
      destruct (vars_split vs vals x _ L N) as (d & rest & Nd' & P1 & P2 & P3).
      rewrite Nd in Nd'. injection Nd' as <-.
      destruct (cow_extra_ok h [] rest (Some a) (VArr l) l 1 (or_intror eq_refl)) as (p & h1 & js & Q1 & U & LJ & I1).
      { eapply Inv_E; [exact P1|exact I]. }
      destruct (enlarge_ok 1 h1 [] rest p l js U LJ I1) as (h2 & Q2 & I2).
      destruct js as [|j js]; [cbn in LJ; lia|]. cbn [skipn repeat] in I2.
      destruct (move_right_ok (skipn i l) h2 [] rest p (length (l ++ [VNull])) (map Some (firstn i l)) 1 js) as (h3 & Q3 & I3).
      { lia. }
      { cbn [repeat]. rewrite app_assoc, <- map_app, firstn_skipn. rewrite map_app, <- app_assoc in I2. exact I2. }
      rewrite map_length, firstn_length_le, skipn_length in Q3 by lia.
      assert (Hr : In (r, w) rest) by (eapply P3; eauto).
      destruct (incref_in _ _ _ _ _ I3 Hr) as (h4 & Q4 & I4).
      destruct (place_ok _ _ _ _ _ _ i _ _ I4) as (h5 & Q5 & I5).
      { right. cbn [repeat app]. apply nth_map', firstn_length_le, Hi. }
      cbn [repeat app] in I5. rewrite (lset_map' Some (firstn i l)) in I5 by (apply firstn_length_le, Hi).
      apply (agree_arr h5 vs vals x _ p (firstn i l ++ w :: skipn i l) js rest _ _ L N P2).
      * replace (length (firstn i l ++ w :: skipn i l)) with (length (l ++ [VNull])).
        -- rewrite app_assoc, <- map_app, <- app_assoc in I5. exact I5.
        -- rewrite !app_length, firstn_length_le by assumption. cbn [length]. rewrite skipn_length. lia.
      * now inversion U.
      * ex. rewrite Em. cbn [bind]. rewrite (closed_size _ _ _ _ _ I D). cbn [bind].
        destruct (Nat.ltb_spec (length l) i) as [Hi'|_]; [lia|]. rewrite Q1. cbn [bind].
        rewrite Q2. cbn [bind]. rewrite Q3. cbn [bind].
        unfold item_of. rewrite (rd_nth _ _ r) by (rewrite nth_lset_ne; assumption). cbn [bind].
        rewrite Q4. cbn [bind]. rewrite Q5. reflexivity.
    + same h vs. apply step_exn. ex. rewrite Em. reflexivity.
  - (* InsertRange *)
    destruct (rds_v vals ys) as [m|e| |] eqn:Er; cbn [bind]; [| |exact Logic.I|exact Logic.I].
    2:{ exfalso. clear - Er. induction ys as [|y ys IH]; cbn in Er; [discriminate|].
        unfold rd in Er. destruct (nth_error vals y); cbn [bind] in Er; [|discriminate].
        destruct (rds_v vals ys); cbn [bind] in Er; try discriminate. apply IH. congruence. }
    destruct (rds_ok vs vals ys L m Er) as (P & Qr & <- & HP).
    arr_cases h vs vals x L I.
    + destruct P as [|p P]; cbn [map].
      * same h vs. apply step_okr. ex. rewrite Qr. cbn [bind]. rewrite Em. reflexivity.
      * same h vs. apply step_okr. ex. rewrite Qr. cbn [bind]. rewrite Em. reflexivity.
    + destruct (list_eq_nil_dec P) as [-> |HPn]; cbn [map].
      { same h vs. apply step_okr. ex. rewrite Qr. cbn [bind]. rewrite Em. reflexivity. }
      assert (FOLD : match map snd P with [] => Ok (vals, Done) | _ :: _ =>
                if (length l <? i)%nat then OOB else set_v vals x (VArr (firstn i l ++ map snd P ++ skipn i l)) end =
                if (length l <? i)%nat then OOB else set_v vals x (VArr (firstn i l ++ map snd P ++ skipn i l)))
        by (destruct P; [congruence|reflexivity]).
      rewrite FOLD. clear FOLD.
      destruct (Nat.ltb_spec (length l) i) as [Hi|Hi]; [exact Logic.I|].
      destruct (vars_split vs vals x _ L N) as (d & rest & Nd' & P1 & P2 & P3).
      rewrite Nd in Nd'. injection Nd' as <-.
      destruct (increfs_ok P h [] _ HP I) as (h0 & Q0 & I0).
      destruct (cow_extra_ok h0 [] (P ++ rest) (Some a) (VArr l) l (length P) (or_intror eq_refl)) as (p & h1 & js & Q1 & U & LJ & I1).
      { eapply Inv_E; [|exact I0]. rewrite P1. symmetry. apply Permutation_middle. }
      destruct (enlarge_ok (length P) h1 [] _ p l js U LJ I1) as (h2 & Q2 & I2).
      destruct (move_right_ok (skipn i l) h2 [] (P ++ rest) p (length (l ++ repeat VNull (length P))) (map Some (firstn i l)) (length P) (skipn (length P) js)) as (h3 & Q3 & I3).
      { destruct P; [congruence|cbn; lia]. }
      { rewrite app_assoc, <- map_app, firstn_skipn. rewrite map_app, <- app_assoc in I2.
        replace (repeat (Some VNull) (length P)) with (map Some (repeat VNull (length P))); [exact I2|].
        clear. induction (length P); cbn; congruence. }
      rewrite map_length, firstn_length_le, skipn_length in Q3 by lia.
      destruct (init_range_ok P h3 [] (P ++ rest) p _ (map Some (firstn i l)) (repeat (Some VNull) (length P)) _ (incl_appl _ (incl_refl _))
         (repeat_length _ _) (ujunk_repeat_null _) I3) as (h4 & Q4 & I4).
      rewrite map_length, firstn_length_le in Q4 by lia.
      destruct (decrefs_ok P h4 _ rest I4) as (h5 & Q5 & I5).
      apply (agree_arr h5 vs vals x _ p (firstn i l ++ map snd P ++ skipn i l) (skipn (length P) js) rest _ _ L N P2).
      * replace (length (firstn i l ++ map snd P ++ skipn i l)) with (length (l ++ repeat VNull (length P))).
        -- rewrite !map_app, <- !app_assoc. exact I5.
        -- rewrite !app_length, firstn_length_le, repeat_length, map_length, skipn_length by assumption. lia.
      * clear - U. revert js U. induction (length P); intros js U; cbn; [assumption|].
        destruct js; [assumption|]. apply IHn. now inversion U.
      * ex. rewrite Qr. cbn [bind]. rewrite Em. cbn [bind]. 
        assert (FOLD : forall (T : Type) (A B : T), match map fst P with [] => A | _ :: _ => B end = B)
          by (intros; destruct P; [congruence|reflexivity]).
        rewrite FOLD. rewrite (closed_size _ _ _ _ _ I D). cbn [bind].
        destruct (Nat.ltb_spec (length l) i) as [Hi'|_]; [lia|]. rewrite Q0. cbn [bind].
        rewrite map_length. rewrite Q1. cbn [bind]. rewrite Q2. cbn [bind]. rewrite Q3. cbn [bind].
        rewrite Q4. cbn [bind]. rewrite Q5. reflexivity.
    + same h vs. apply step_exn. ex. rewrite Qr. cbn [bind]. rewrite Em. reflexivity.
  - (* Pop *)
    arr_cases h vs vals x L I.
    + same h vs. apply step_okr. ex. rewrite Em. reflexivity.
    + destruct (list_eq_nil_dec l) as [-> |Hl].
      { same h vs. apply step_okr. ex. rewrite Em. cbn [bind]. rewrite (closed_size _ _ _ _ _ I D). reflexivity. }
      destruct (exists_last Hl) as (l0 & u & ->).
      assert (FOLD : forall (T : Type) (A B : T), match l0 ++ [u] with [] => A | _ :: _ => B end = B)
        by (intros; destruct l0; reflexivity).
      rewrite FOLD. rewrite removelast_last.
      destruct (vars_split vs vals x _ L N) as (d & rest & Nd' & P1 & P2 & P3).
      rewrite Nd in Nd'. injection Nd' as <-.
      destruct (cow_ok h [] rest (Some a) (VArr (l0 ++ [u])) (l0 ++ [u]) (or_intror eq_refl)) as (p & h1 & js & Q1 & U & I1 & _).
      { eapply Inv_E; [exact P1|exact I]. }
      destruct (shrink_ok 1 h1 [] rest p (l0 ++ [u]) js U) as (h2 & js' & Q2 & U2 & _ & I2).
      { rewrite app_length. cbn. lia. }
      { exact I1. }
      replace (length (l0 ++ [u]) - 1)%nat with (length l0) in I2 by (rewrite app_length; cbn; lia).
      rewrite firstn_app, Nat.sub_diag, firstn_all in I2. cbn [firstn] in I2. rewrite app_nil_r in I2.
      apply (agree_arr h2 vs vals x _ p l0 js' rest _ _ L N P2 I2 U2).
      ex. rewrite Em. cbn [bind]. rewrite (closed_size _ _ _ _ _ I D). cbn [bind].
      rewrite app_length. cbn [length]. rewrite Nat.add_1_r. rewrite Q1. cbn [bind]. rewrite Q2. reflexivity.
    + same h vs. apply step_exn. ex. rewrite Em. reflexivity.
  - (* Erase *)
    arr_cases h vs vals x L I.
    + same h vs. apply step_okr. ex. rewrite Em. reflexivity.
    + destruct ((0 <=? i) && (i <? Z.of_nat (length l))) eqn:B.
      2:{ same h vs. apply step_okr. ex. rewrite Em. cbn [bind]. rewrite (closed_size _ _ _ _ _ I D). cbn [bind]. rewrite B. reflexivity. }
      destruct (vars_split vs vals x _ L N) as (d & rest & Nd' & P1 & P2 & P3).
      rewrite Nd in Nd'. injection Nd' as <-.
      destruct (cow_ok h [] rest (Some a) (VArr l) l (or_intror eq_refl)) as (p & h1 & js & Q1 & U & I1 & _).
      { eapply Inv_E; [exact P1|exact I]. }
      destruct (erase_region_ok h1 [] rest p l js (Z.to_nat i) (S (Z.to_nat i)) ltac:(lia) U I1) as (h2 & h3 & js' & Q2 & Q3 & U3 & I3).
      apply (agree_arr h3 vs vals x _ p _ js' rest _ _ L N P2 I3 U3).
      ex. rewrite Em. cbn [bind]. rewrite (closed_size _ _ _ _ _ I D). cbn [bind]. rewrite B, Q1. cbn [bind].
      rewrite Nat.add_1_r, Q2. cbn [bind].
      replace (S (Z.to_nat i) - Z.to_nat i)%nat with 1%nat in Q3 by lia. rewrite Q3. reflexivity.
    + same h vs. apply step_exn. ex. rewrite Em. reflexivity.
  - (* EraseRange *)
    arr_cases h vs vals x L I.
    + destruct (Z.eqb_spec i j) as [Eij|Eij].
      * same h vs. apply step_okr. ex. rewrite Em. cbn [bind]. destruct (Z.eqb_spec i j); [reflexivity|lia].
      * same h vs. apply step_okr. ex. rewrite Em. cbn [bind]. destruct (Z.eqb_spec i j); [lia|reflexivity].
    + destruct (Z.eqb_spec i j) as [Eij|Eij].
      { same h vs. apply step_okr. ex. rewrite Em. cbn [bind]. destruct (Z.eqb_spec i j); [reflexivity|lia]. }
      destruct ((0 <=? i) && (i <? j) && (j <=? Z.of_nat (length l))) eqn:B.
      2:{ same h vs. apply step_okr. ex. rewrite Em. cbn [bind]. destruct (Z.eqb_spec i j); [lia|].
          rewrite (closed_size _ _ _ _ _ I D). cbn [bind].
          destruct (Z.ltb_spec i j); cbn [negb]; [|reflexivity].
          destruct ((0 <=? i) && (i <=? Z.of_nat (length l)) && (0 <=? j) && (j <=? Z.of_nat (length l))) eqn:B'; [lia|reflexivity]. }
      destruct (vars_split vs vals x _ L N) as (d & rest & Nd' & P1 & P2 & P3).
      rewrite Nd in Nd'. injection Nd' as <-.
      destruct (cow_ok h [] rest (Some a) (VArr l) l (or_intror eq_refl)) as (p & h1 & js & Q1 & U & I1 & _).
      { eapply Inv_E; [exact P1|exact I]. }
      destruct (erase_region_ok h1 [] rest p l js (Z.to_nat i) (Z.to_nat j) ltac:(lia) U I1) as (h2 & h3 & js' & Q2 & Q3 & U3 & I3).
      apply (agree_arr h3 vs vals x _ p _ js' rest _ _ L N P2 I3 U3).
      ex. rewrite Em. cbn [bind]. destruct (Z.eqb_spec i j); [lia|].
      rewrite (closed_size _ _ _ _ _ I D). cbn [bind].
      destruct (Z.ltb_spec i j); cbn [negb]; [|lia].
      destruct ((0 <=? i) && (i <=? Z.of_nat (length l)) && (0 <=? j) && (j <=? Z.of_nat (length l))) eqn:B'; [|lia].
      rewrite Q1. cbn [bind]. rewrite Q2. cbn [bind]. rewrite Q3. reflexivity.
    + same h vs. apply step_exn. ex. rewrite Em. reflexivity.
  - (* Resize *)
    cbn [tame] in T. arr_cases h vs vals x L I.
    + specialize (T Ea). destruct (Z.ltb_spec n 0) as [Hn|Hn].
      * same h vs. apply step_okr. ex. rewrite Em. cbn [bind]. destruct (Z.ltb_spec n 0); [reflexivity|lia].
      * assert (n = 0) as -> by lia. cbn [Z.to_nat firstn Nat.sub length repeat app].
        destruct (vars_split vs vals x _ L N) as (d & rest & Nd' & P1 & P2 & P3).
        rewrite Nd in Nd'. injection Nd' as <-.
        destruct (switch_ok h [] rest None VNull [] 0 (or_introl (conj eq_refl eq_refl))) as (p & h1 & js & Q1 & U & _ & I1).
        { eapply Inv_E; [exact P1|exact I]. }
        { cbn. lia. }
        apply (agree_arr h1 vs vals x _ p [] js rest _ _ L N P2 I1 U).
        ex. rewrite Em. cbn [bind]. destruct (Z.ltb_spec 0 0); [lia|]. rewrite Q1. reflexivity.
    + destruct (Z.ltb_spec n 0) as [Hn|Hn].
      { same h vs. apply step_okr. ex. rewrite Em. cbn [bind]. destruct (Z.ltb_spec n 0); [reflexivity|lia]. }
      destruct (vars_split vs vals x _ L N) as (d & rest & Nd' & P1 & P2 & P3).
      rewrite Nd in Nd'. injection Nd' as <-.
      assert (I0 := Inv_E _ _ _ _ P1 I).
      destruct (Z.lt_trichotomy (Z.of_nat (length l)) n) as [C|[C|C]].
      * rewrite firstn_all2 by lia.
        destruct (cow_extra_ok h [] rest (Some a) (VArr l) l (Z.to_nat n - length l) (or_intror eq_refl) I0) as (p & h1 & js & Q1 & U & LJ & I1).
        destruct (enlarge_ok _ h1 [] rest p l js U LJ I1) as (h2 & Q2 & I2).
        apply (agree_arr h2 vs vals x _ p _ _ rest _ _ L N P2 I2 (firstn_ujunk _ _ U)).
        ex. rewrite Em. cbn [bind]. destruct (Z.ltb_spec n 0); [lia|].
        rewrite (closed_size _ _ _ _ _ I D). cbn [bind]. destruct (Z.ltb_spec (Z.of_nat (length l)) n); [|lia].
        rewrite Q1. cbn [bind]. rewrite Q2. reflexivity.
      * replace (Z.to_nat n) with (length l) by lia. rewrite Nat.sub_diag, firstn_all. cbn [repeat]. rewrite app_nil_r.
        destruct (set_v_cases vals x (VArr l)) as [(v' & N' & Es) | Es]; rewrite Es; [|exact Logic.I].
        rewrite (lset_none _ _ _ N). same h vs. apply step_okr.
        ex. rewrite Em. cbn [bind]. destruct (Z.ltb_spec n 0); [lia|].
        rewrite (closed_size _ _ _ _ _ I D). cbn [bind]. destruct (Z.ltb_spec (Z.of_nat (length l)) n); [lia|].
        rewrite Z.gtb_ltb. destruct (Z.ltb_spec n (Z.of_nat (length l))); [lia|reflexivity].
      * replace (Z.to_nat n - length l)%nat with 0%nat by lia. cbn [repeat]. rewrite app_nil_r.
        destruct (cow_ok h [] rest (Some a) (VArr l) l (or_intror eq_refl) I0) as (p & h1 & js & Q1 & U & I1 & _).
        destruct (shrink_ok (length l - Z.to_nat n) h1 [] rest p l js U ltac:(lia) I1) as (h2 & js' & Q2 & U2 & _ & I2).
        replace (length l - (length l - Z.to_nat n))%nat with (length (firstn (Z.to_nat n) l)) in I2 at 1 by (rewrite firstn_length_le; lia).
        replace (length l - (length l - Z.to_nat n))%nat with (Z.to_nat n) in I2 by lia.
        apply (agree_arr h2 vs vals x _ p _ _ rest _ _ L N P2 I2 U2).
        ex. rewrite Em. cbn [bind]. destruct (Z.ltb_spec n 0); [lia|].
        rewrite (closed_size _ _ _ _ _ I D). cbn [bind]. destruct (Z.ltb_spec (Z.of_nat (length l)) n); [lia|].
        rewrite Z.gtb_ltb. destruct (Z.ltb_spec n (Z.of_nat (length l))); [|lia].
        rewrite Q1. cbn [bind]. rewrite Q2. reflexivity.
    + same h vs. apply step_exn. ex. rewrite Em. reflexivity.
  - (* Reserve *)
    arr_cases h vs vals x L I.
    + destruct (Z.ltb_spec n 0) as [Hn|Hn].
      * same h vs. apply step_exn. ex. rewrite Em. cbn [bind switch_container]. unfold empty_node.
        destruct (Z.ltb_spec n 0); [reflexivity|lia].
      * destruct (vars_split vs vals x _ L N) as (d & rest & Nd' & P1 & P2 & P3).
        rewrite Nd in Nd'. injection Nd' as <-.
        destruct (switch_ok h [] rest None VNull [] n (or_introl (conj eq_refl eq_refl))) as (p & h1 & js & Q1 & U & _ & I1).
        { eapply Inv_E; [exact P1|exact I]. }
        { cbn. lia. }
        apply (agree_arr h1 vs vals x _ p [] js rest _ _ L N P2 I1 U).
        ex. rewrite Em. cbn [bind]. rewrite Q1. reflexivity.
    + destruct (closed_cap _ _ _ _ _ I D) as (cp & Hc & Lcp).
      destruct (n >? Z.of_nat cp) eqn:B.
      * destruct (vars_split vs vals x _ L N) as (d & rest & Nd' & P1 & P2 & P3).
        rewrite Nd in Nd'. injection Nd' as <-.
        destruct (switch_ok h [] rest (Some a) (VArr l) l n (or_intror eq_refl)) as (p & h1 & js & Q1 & U & _ & I1).
        { eapply Inv_E; [exact P1|exact I]. }
        { lia. }
        pose proof (agree_arr h1 vs vals x _ p l js rest (mkst h vs) (Reserve x n) L N P2 I1 U) as X.
        unfold set_v in X. rewrite (rd_nth _ _ _ N) in X. cbn [bind] in X. rewrite (lset_none _ _ _ N) in X. apply X.
        ex. rewrite Em. cbn [bind]. rewrite Hc. cbn [bind]. rewrite B, Q1. reflexivity.
      * same h vs. apply step_okr. ex. rewrite Em. cbn [bind]. rewrite Hc. cbn [bind]. rewrite B. reflexivity.
    + same h vs. apply step_exn. ex. rewrite Em. reflexivity.
  - (* Clear *)
    arr_cases h vs vals x L I.
    + same h vs. apply step_okr. ex. rewrite Em. reflexivity.
    + destruct (vars_split vs vals x _ L N) as (d & rest & Nd' & P1 & P2 & P3).
      rewrite Nd in Nd'. injection Nd' as <-.
      destruct (cow_ok h [] rest (Some a) (VArr l) l (or_intror eq_refl)) as (p & h1 & js & Q1 & U & I1 & _).
      { eapply Inv_E; [exact P1|exact I]. }
      destruct (shrink_ok (length l) h1 [] rest p l js U ltac:(lia) I1) as (h2 & js' & Q2 & U2 & _ & I2).
      rewrite Nat.sub_diag in I2. cbn [firstn] in I2.
      apply (agree_arr h2 vs vals x _ p [] js' rest _ _ L N P2 I2 U2).
      ex. rewrite Em. cbn [bind]. rewrite Q1. cbn [bind]. rewrite (size_open _ _ _ _ _ _ I1). cbn [bind]. rewrite Q2. reflexivity.
    + same h vs. apply step_exn. ex. rewrite Em. reflexivity.
  - (* Set *)
    spec_rd vals y. destruct (nth_lt _ _ _ _ L N) as [r Nr].
    destruct (incref_in _ _ _ _ _ I (in_combine_nth _ _ _ _ _ Nr N)) as (h0 & Q0 & I0).
    assert (SET : forall dd v l, nth_error vals x = Some v -> nth_error vs x = Some dd -> arr_val v l -> var_arr h vs x = Ok dd ->
      match (if (0 <=? i) && (i <? Z.of_nat (length l)) then set_v vals x (VArr (lset l (Z.to_nat i) w))
             else Ok (lset vals x (VArr l), Raised IndexError)) with
      | Ok (vals', b) => exists s', step (mkst h vs) (Set_ x i y) = Ok (s', b) /\ R s' vals'
      | Exn e => exists s', step (mkst h vs) (Set_ x i y) = Ok (s', Raised e) /\ R s' vals
      | _ => True
      end).
    { intros dd v l Nx Nd AV Em.
      destruct (vars_split vs vals x _ L Nx) as (d & rest & Nd' & P1 & P2 & P3).
      rewrite Nd in Nd'. injection Nd' as <-.
      destruct (cow_ok h0 [] ((r, w) :: rest) dd v l AV) as (p & h1 & js & Q1 & U & I1 & _).
      { eapply Inv_E; [|exact I0]. rewrite P1. apply perm_swap. }
      destruct ((0 <=? i) && (i <? Z.of_nat (length l))) eqn:B.
      - assert (Hi : (Z.to_nat i < length l)%nat) by lia.
        destruct (nth_error l (Z.to_nat i)) as [u|] eqn:Nu; [|apply nth_error_None in Nu; lia].
        destruct (assign_ok _ _ _ _ _ _ (Z.to_nat i) _ _ u I1) as (h2 & Q2 & I2).
        { rewrite nth_error_app1 by (rewrite map_length; lia). now apply map_nth_error. }
        apply (agree_arr h2 vs vals x _ p (lset l (Z.to_nat i) w) js rest _ _ L Nx P2).
        + rewrite lset_length. replace (map Some (lset l (Z.to_nat i) w) ++ js)
            with (lset (map Some l ++ js) (Z.to_nat i) (Some w)); [exact I2|].
          destruct (nth_error_split _ _ Nu) as (l1 & l2 & -> & <-). rewrite lset_split.
          rewrite !map_app, <- !app_assoc. cbn [map app]. rewrite <- (map_length Some l1). apply lset_app.
        + exact U.
        + ex. rewrite (rd_nth _ _ _ Nr). cbn [bind]. rewrite Em. cbn [bind]. rewrite Q0. cbn [bind]. rewrite Q1. cbn [bind].
          rewrite (size_open _ _ _ _ _ _ I1). cbn [bind]. rewrite B, Q2. reflexivity.
      - destruct (decref_ok _ _ _ _ _ I1) as (h2 & Q2 & I2).
        exists (mkst h2 (lset vs x (Some p))). split.
        + apply step_okr. ex. rewrite (rd_nth _ _ _ Nr). cbn [bind]. rewrite Em. cbn [bind]. rewrite Q0. cbn [bind]. rewrite Q1. cbn [bind].
          rewrite (size_open _ _ _ _ _ _ I1). cbn [bind]. rewrite B, Q2. reflexivity.
        + eapply finish; eauto. eapply close_ok; eauto. }
    arr_cases h vs vals x L I.
    + apply (SET None VNull []); auto. left. auto.
    + apply (SET (Some a) (VArr l) l); auto. right. auto.
    + same h vs. apply step_exn. ex. rewrite (rd_nth _ _ _ Nr). cbn [bind]. rewrite Em. reflexivity.
  - (* Assign *)
    destruct (rds_v vals ys) as [m|e| |] eqn:Er; cbn [bind]; [| |exact Logic.I|exact Logic.I].
    2:{ exfalso. clear - Er. induction ys as [|y ys IH]; cbn in Er; [discriminate|].
        unfold rd in Er. destruct (nth_error vals y); cbn [bind] in Er; [|discriminate].
        destruct (rds_v vals ys); cbn [bind] in Er; try discriminate. apply IH. congruence. }
    destruct (rds_ok vs vals ys L m Er) as (P & Qr & <- & HP).
    destruct (increfs_ok P h [] _ HP I) as (h0 & Q0 & I0).
    arr_cases h vs vals x L I.
    + destruct (vars_split vs vals x _ L N) as (d & rest & Nd' & P1 & P2 & P3).
      rewrite Nd in Nd'. injection Nd' as <-.
      assert (I0' : Inv h0 [] (P ++ rest)).
      { eapply Inv_drop_null. eapply Inv_E; [|exact I0]. rewrite P1. symmetry. apply Permutation_middle. }
      destruct (empty_ok _ _ _ (Z.of_nat (length P)) I0' ltac:(lia)) as (h1 & Q1 & I1 & _).
      destruct (set_size_ok _ _ _ _ _ _ 0 I1) as (h2 & Q2 & I2).
      destruct (assign_loop_ok P h2 [] (P ++ rest) (length h0) [] (repeat None (length P))) as (h3 & Q3 & I3).
      { apply incl_appl, incl_refl. }
      { rewrite repeat_length. lia. }
      { apply ujunk_repeat. }
      { rewrite Nat2Z.id in I2. exact I2. }
      destruct (decrefs_ok P h3 _ rest I3) as (h4 & Q4 & I4).
      apply (agree_arr h4 vs vals x _ (length h0) (map snd P) _ rest _ _ L N P2 I4 (firstn_ujunk _ _ (ujunk_repeat _))).
      ex. rewrite Qr. cbn [bind]. rewrite Em. cbn [bind]. rewrite Q0. cbn [bind]. rewrite map_length, Q1. cbn [bind].
      rewrite Q2. cbn [bind]. cbn [length] in Q3. rewrite Q3. cbn [bind]. rewrite Q4. reflexivity.
    + destruct (vars_split vs vals x _ L N) as (d & rest & Nd' & P1 & P2 & P3).
      rewrite Nd in Nd'. injection Nd' as <-.
      assert (I0' : Inv h0 [] ((Some a, VArr l) :: P ++ rest)).
      { eapply Inv_E; [|exact I0]. rewrite P1. symmetry. apply Permutation_middle. }
      pose proof (I_ext _ _ _ I0' _ _ (or_introl eq_refl)) as D0.
      destruct (den_live _ _ _ D0) as [c Lc].
      destruct (closed_cap _ _ _ _ _ I0' D0) as (cp & Hc & Lcp).
      destruct ((cell_rc c =? 1) && (length P <=? cp)%nat) eqn:B.
      * assert (RC : cell_rc c = 1) by lia.
        destruct (open_ok _ _ _ _ _ _ I0' Lc RC) as (js & I1 & U1 & C1).
        rewrite Hc in C1. injection C1 as C1.
        destruct (shrink_ok (length l) h0 [] (P ++ rest) a l js U1 ltac:(lia) I1) as (h2 & js' & Q2 & U2 & LJ & I2).
        rewrite Nat.sub_diag in I2. cbn [firstn] in I2.
        destruct (set_size_ok _ _ _ _ _ _ 0 I2) as (h3 & Q3 & I3).
        destruct (assign_loop_ok P h3 [] (P ++ rest) a [] js') as (h4 & Q4 & I4).
        { apply incl_appl, incl_refl. }
        { lia. }
        { assumption. }
        { exact I3. }
        destruct (decrefs_ok P h4 _ rest I4) as (h5 & Q5 & I5).
        apply (agree_arr h5 vs vals x _ a (map snd P) _ rest _ _ L N P2 I5 (firstn_ujunk _ _ U2)).
        ex. rewrite Qr. cbn [bind]. rewrite Em. cbn [bind]. rewrite Q0. cbn [bind].
        rewrite (unique_ok _ _ _ Lc). cbn [bind]. rewrite Hc. cbn [bind]. rewrite map_length, B.
        rewrite (closed_size _ _ _ _ _ I0' D0). cbn [bind]. rewrite Q2. cbn [bind]. rewrite Q3. cbn [bind].
        cbn [length] in Q4. rewrite Q4. cbn [bind]. rewrite Q5. reflexivity.
      * destruct (empty_ok _ _ _ (Z.of_nat (length P)) I0' ltac:(lia)) as (h1 & Q1 & I1 & _).
        destruct (decref_ok _ _ _ _ _ I1) as (h2 & Q2 & I2).
        destruct (set_size_ok _ _ _ _ _ _ 0 I2) as (h3 & Q3 & I3).
        destruct (assign_loop_ok P h3 [] (P ++ rest) (length h0) [] (repeat None (length P))) as (h4 & Q4 & I4).
        { apply incl_appl, incl_refl. }
        { rewrite repeat_length. lia. }
        { apply ujunk_repeat. }
        { rewrite Nat2Z.id in I3. exact I3. }
        destruct (decrefs_ok P h4 _ rest I4) as (h5 & Q5 & I5).
        apply (agree_arr h5 vs vals x _ (length h0) (map snd P) _ rest _ _ L N P2 I5 (firstn_ujunk _ _ (ujunk_repeat _))).
        ex. rewrite Qr. cbn [bind]. rewrite Em. cbn [bind]. rewrite Q0. cbn [bind].
        rewrite (unique_ok _ _ _ Lc). cbn [bind]. rewrite Hc. cbn [bind]. rewrite map_length, B.
        rewrite Q1. cbn [bind]. rewrite Q2. cbn [bind]. rewrite Q3. cbn [bind].
        cbn [length] in Q4. rewrite Q4. cbn [bind]. rewrite Q5. reflexivity.
    + same h vs. apply step_exn. ex. rewrite Qr. cbn [bind]. rewrite Em. reflexivity.
  - (* Get *)
    arr_cases h vs vals y L I.
    + same h vs. apply step_okr. ex. rewrite Em. reflexivity.
    + destruct ((0 <=? i) && (i <? Z.of_nat (length l))) eqn:B.
      * destruct (nth_error l (Z.to_nat i)) as [u|] eqn:Nu; [|apply nth_error_None in Nu; lia].
        rewrite (rd_nth _ _ _ Nu). cbn [bind].
        apply (agree_get h vs vals a l x (Z.to_nat i) u _ _ L I D Nu).
        ex. rewrite Em. cbn [bind]. rewrite (closed_size _ _ _ _ _ I D). cbn [bind]. rewrite B. reflexivity.
      * same h vs. apply step_okr. ex. rewrite Em. cbn [bind]. rewrite (closed_size _ _ _ _ _ I D). cbn [bind]. rewrite B. reflexivity.
    + same h vs. apply step_exn. ex. rewrite Em. reflexivity.
  - (* Front *)
    arr_cases h vs vals y L I.
    + same h vs. apply step_okr. ex. rewrite Em. reflexivity.
    + destruct l as [|u l].
      * same h vs. apply step_okr. ex. rewrite Em. cbn [bind]. rewrite (closed_size _ _ _ _ _ I D). reflexivity.
      * apply (agree_get h vs vals a (u :: l) x 0 u _ _ L I D eq_refl).
        ex. rewrite Em. cbn [bind]. rewrite (closed_size _ _ _ _ _ I D). reflexivity.
    + same h vs. apply step_exn. ex. rewrite Em. reflexivity.
  - (* Back *)
    arr_cases h vs vals y L I.
    + same h vs. apply step_okr. ex. rewrite Em. reflexivity.
    + destruct (list_eq_nil_dec l) as [-> |Hl].
      * same h vs. apply step_okr. ex. rewrite Em. cbn [bind]. rewrite (closed_size _ _ _ _ _ I D). reflexivity.
      * destruct (exists_last Hl) as (l0 & u & ->).
        assert (FOLD : match l0 ++ [u] with [] => Exn IndexError | v :: _ => set_v vals x (last (l0 ++ [u]) v) end = set_v vals x u)
          by (destruct l0 as [|q l0]; [reflexivity|]; cbn [app]; rewrite app_comm_cons, last_last; reflexivity).
        rewrite FOLD.
        apply (agree_get h vs vals a (l0 ++ [u]) x (length l0) u _ _ L I D (nth_app _ _ _)).
        ex. rewrite Em. cbn [bind]. rewrite (closed_size _ _ _ _ _ I D). cbn [bind]. rewrite app_length. cbn [length].
        rewrite Nat.add_1_r. reflexivity.
    + same h vs. apply step_exn. ex. rewrite Em. reflexivity.
  - (* Size *)
    arr_cases h vs vals x L I.
    + same h vs. apply step_okr. ex. rewrite Em. reflexivity.
    + same h vs. apply step_okr. ex. rewrite Em. cbn [bind]. rewrite (closed_size _ _ _ _ _ I D). reflexivity.
    + same h vs. apply step_exn. ex. rewrite Em. reflexivity.
  - (* Map *)
    arr_cases h vs vals y L I.
    + apply (agree_set h vs vals _ x None VNull _ _ L (Inv_add_null _ _ _ I)). ex. rewrite Em. reflexivity.
    + assert (Ha : In (Some a, VArr l) (combine vs vals)) by (eapply in_combine_nth; eauto).
      destruct (incref_in _ _ _ _ _ I Ha) as (h1 & Q1 & I1).
      assert (NU : unique h1 a = Ok false).
      { pose proof (I_ext _ _ _ I1 _ _ (or_introl eq_refl)) as D1. destruct (den_live _ _ _ D1) as [c Lc].
        rewrite (unique_ok _ _ _ Lc). f_equal. pose proof (I_rc _ _ _ I1 a) as RC. unfold rc in RC. rewrite Lc in RC.
        cbn [map fst cntr] in RC. rewrite occ_self in RC. pose proof (cnth_nn a h1).
        assert (1 <= cntr a (map fst (combine vs vals))) by (apply cntr_in, in_map_iff; exists (Some a, VArr l); auto).
        lia. }
      assert (K : knows vs vals f (combine vs vals)).
      { intros k y0 w F N0. destruct (nth_lt _ _ _ _ L N0) as [r Nr]. exists r. split; [assumption|]. eapply in_combine_nth; eauto. }
      pose proof (map_helper_ok h1 _ a l vs vals f I1 K) as MH.
      destruct (map_v vals f l) as [m|e| |]; cbn [bind]; auto.
      * destruct MH as (r & h2 & Q2 & I2).
        apply (agree_set h2 vs vals _ x r (VArr m) _ _ L I2). ex. rewrite Em. cbn [bind]. rewrite Q1. cbn [bind]. rewrite Q2. reflexivity.
      * destruct MH as (-> & MH). destruct (MH NU) as (h2 & Q2 & I2).
        exists (mkst h2 vs). split; [|split; assumption].
        apply step_okr. ex. rewrite Em. cbn [bind]. rewrite Q1. cbn [bind]. rewrite Q2. reflexivity.
    + same h vs. apply step_exn. ex. rewrite Em. reflexivity.
  - (* Mutate *)
    cbn [tame] in T. arr_cases h vs vals x L I.
    + exists (mkst h (lset vs x None)). split.
      * apply step_okr. ex. rewrite Em. reflexivity.
      * rewrite (lset_none _ _ _ Nd). split; assumption.
    + destruct (vars_split vs vals x _ L N) as (d & rest & Nd' & P1 & P2 & P3).
      rewrite Nd in Nd'. injection Nd' as <-.
      assert (K : knows (lset vs x None) vals f rest).
      { intros k y w F N0. destruct (T k) as [_ T2]. assert (x <> y) by congruence.
        destruct (nth_lt _ _ _ _ L N0) as [r Nr]. exists r.
        split; [rewrite nth_lset_ne by assumption; assumption|]. eapply P3; eauto. }
      pose proof (map_helper_ok h rest a l (lset vs x None) vals f (Inv_E _ _ _ _ P1 I) K) as MH.
      destruct (map_v vals f l) as [m|e| |] eqn:M; cbn [bind]; auto.
      * destruct MH as (r & h2 & Q2 & I2).
        destruct (set_v_cases vals x (VArr m)) as [(v' & N' & Es) | Es]; rewrite Es; [|exact Logic.I].
        exists (mkst h2 (lset (lset vs x None) x r)). split.
        -- apply step_okr. ex. rewrite Em. cbn [bind]. rewrite Q2. cbn [bind]. unfold done. do 3 f_equal.
           clear. revert x. induction vs; intros [|x]; cbn; congruence.
        -- replace (lset (lset vs x None) x r) with (lset vs x r) by (clear; revert x; induction vs; intros [|x]; cbn; congruence).
           eapply finish; eauto.
      * exfalso. clear - M T. induction l as [|u l IH]; cbn in M; [discriminate|].
        destruct (act vals f u) as [w|e0| |] eqn:A; cbn [bind] in M; try discriminate.
        -- destruct (map_v vals f l); cbn [bind] in M; try discriminate. apply IH. congruence.
        -- unfold act in A. destruct (T (kind_v u)) as [T1 _]. destruct (f (kind_v u)); try discriminate; try congruence.
           unfold rd in A. destruct (nth_error vals y); discriminate.
    + same h vs. apply step_exn. ex. rewrite Em. reflexivity.
  - (* Concat *)
    cbn [tame] in T.
    assert (CAT : forall dd v l b m, In (dd, v) (combine vs vals) -> arr_val v l -> var_arr h vs y = Ok dd ->
       nth_error vs z = Some (Some b) -> nth_error vals z = Some (VArr m) -> var_arr h vs z = Ok (Some b) ->
      match set_v vals x (match m with [] => v | _ => VArr (l ++ m) end) with
      | Ok (vals', b) => exists s', step (mkst h vs) (Concat x y z) = Ok (s', b) /\ R s' vals'
      | Exn e => exists s', step (mkst h vs) (Concat x y z) = Ok (s', Raised e) /\ R s' vals
      | _ => True
      end).
    { intros dd v l b m Hd AV Ey Nb Nm Ez.
      destruct (incref_in _ _ _ _ _ I Hd) as (h1 & Q1 & I1).
      assert (Hb : In (Some b, VArr m) (combine vs vals)) by (eapply in_combine_nth; eauto).
      destruct (concat_loop_ok m h1 _ b [] dd v l Hb AV I1) as (r & h2 & Q2 & I2).
      apply (agree_set h2 vs vals _ x r _ _ _ L I2).
      ex. rewrite Ey. cbn [bind]. rewrite Ez. cbn [bind]. rewrite Q1. cbn [bind].
      rewrite (closed_size _ _ _ _ _ I1 (I_ext _ _ _ I1 _ _ (or_intror Hb))). cbn [bind length] in *. rewrite Q2. reflexivity. }
    arr_cases h vs vals y L I.
    + arr_cases h vs vals z L I.
      * congruence.
      * specialize (CAT None VNull [] a l (in_combine_nth _ _ _ _ _ Nd N) (or_introl (conj eq_refl eq_refl)) Em Nd0 N0 Em0).
        destruct l; exact CAT.
      * same h vs. apply step_exn. ex. rewrite Em. cbn [bind]. rewrite Em0. reflexivity.
    + arr_cases h vs vals z L I.
      * congruence.
      * specialize (CAT (Some a) (VArr l) l a0 l0 (in_combine_nth _ _ _ _ _ Nd N) (or_intror eq_refl) Em Nd0 N0 Em0).
        destruct l0; [rewrite app_nil_r|]; exact CAT.
      * same h vs. apply step_exn. ex. rewrite Em. cbn [bind]. rewrite Em0. reflexivity.
    + same h vs. apply step_exn. ex. rewrite Em. reflexivity.
Qed.
(** * Histories *)
Lemma den_reads h : forall r v, den h r v -> reads h r v.
Proof.
  apply (den_mut h (fun r v _ => reads h r v)
    (fun rs l _ => forall i v, nth_error l i = Some v -> exists r, nth_error rs i = Some r /\ reads h r v)).
  - constructor.
  - intros a n z L. econstructor; eauto.
  - intros a n rs js l L J D IH. constructor.
    + unfold size_of, arr_of. rewrite L. cbn [bind]. now rewrite (dens_length _ _ _ D).
    + intros i v N. destruct (IH i v N) as (r & Nr & Hr). exists r. split; [|assumption].
      unfold get_slot, arr_of. rewrite L. cbn [bind].
      rewrite (rd_nth _ i (Obj r)); [reflexivity|].
      rewrite nth_error_app1; [now apply map_nth_error|]. rewrite map_length. apply nth_error_Some. congruence.
  - intros [|i] v; discriminate.
  - intros r v rs l D IH1 DS IH2 [|i] w N; cbn in *; [|auto]. injection N as <-. eauto.
Qed.

Lemma R_start n : R (start n) (repeat VNull n).
Proof.
  split; [cbn; now rewrite !repeat_length|]. cbn [start hp vars].
  assert (C : map fst (combine (repeat (@None nat) n) (repeat VNull n)) = repeat None n)
    by (apply fst_combine; now rewrite !repeat_length).
  assert (L0 : forall b, lookup [] b = None) by (intros [|]; reflexivity).
  split.
  - intros a. rewrite C. unfold rc. rewrite L0. cbn. clear. induction n; cbn; lia.
  - intros a c X. rewrite L0 in X. discriminate.
  - intros r v HI. assert (In (r, v) (repeat (None, VNull) n)).
    { clear - HI. induction n; cbn in *; intuition. }
    apply repeat_spec in H. injection H as -> ->. constructor.
  - intros a k us [].
  - intros a c X. rewrite L0 in X. discriminate.
Qed.

Lemma run_ok l : forall s vals vals' bs, R s vals -> tame_run vals l -> run_v vals l = Ok (vals', bs) ->
  exists s', run s l = Ok (s', bs) /\ R s' vals'.
Proof.
  induction l as [|o l IH]; cbn; intros s vals vals' bs HR T X.
  - injection X as <- <-. eauto.
  - destruct T as [T T']. pose proof (exec_ok s vals o HR T) as A. unfold agrees in A.
    unfold step_v in *. destruct (exec_v vals o) as [[v1 b]|e| |] eqn:EX; cbn [bind] in X; try discriminate.
    + destruct A as (s1 & Q & R1). destruct (run_v v1 l) as [[v2 bs2]|e| |] eqn:EL; cbn [bind] in X; try discriminate.
      injection X as <- <-. destruct (IH s1 v1 v2 bs2 R1 (T' _ _ eq_refl) EL) as (s2 & Q2 & R2).
      rewrite Q. cbn [bind]. rewrite Q2. cbn [bind]. eauto.
    + destruct A as (s1 & Q & R1). destruct (run_v vals l) as [[v2 bs2]|e2| |] eqn:EL; cbn [bind] in X; try discriminate.
      injection X as <- <-. destruct (IH s1 vals v2 bs2 R1 (T' _ _ eq_refl) EL) as (s2 & Q2 & R2).
      rewrite Q. cbn [bind]. rewrite Q2. cbn [bind]. eauto.
Qed.

Lemma R_reads s vals : R s vals -> Forall2 (reads (hp s)) (vars s) vals.
Proof.
  intros [L I]. pose proof (I_ext _ _ _ I) as H. clear I. revert vals L H.
  generalize (hp s) as h. induction (vars s) as [|r vs IH]; intros h [|v vals] L H; try discriminate; constructor.
  - apply den_reads, H. now left.
  - apply IH; [cbn in L; congruence|]. intros r' v' HI. apply H. now right.
Qed.

(** * Nothing is left behind *)
Fixpoint vsize (v : val) : nat :=
  match v with VArr l => S (fold_right (fun v n => vsize v + n)%nat O l) | _ => 1%nat end.
Lemma vsize_in v l : In v l -> (vsize v < vsize (VArr l))%nat.
Proof. cbn. induction l as [|w l IH]; cbn; [tauto|]. intros [->|H]; [lia|]. specialize (IH H). lia. Qed.

Lemma bound_sizes h : (forall a c, lookup h a = Some c -> exists v, den h (Some a) v) ->
  forall n, exists B, forall a v, (a < n)%nat -> den h (Some a) v -> (vsize v <= B)%nat.
Proof.
  intros H. induction n as [|n [B HB]]; [exists O; intros; lia|].
  destruct (lookup h n) as [c|] eqn:Lc.
  - destruct (H _ _ Lc) as [v D]. exists (B + vsize v)%nat. intros a w Ha Dw.
    destruct (Nat.eq_dec a n) as [->|NE].
    + rewrite (den_fun h _ _ D _ Dw). lia.
    + specialize (HB a w ltac:(lia) Dw). lia.
  - exists B. intros a w Ha Dw. destruct (Nat.eq_dec a n) as [->|NE].
    + destruct (den_live _ _ _ Dw) as [c Lc']. congruence.
    + apply (HB a); [lia|assumption].
Qed.

Lemma cntr_pos a l : 1 <= cntr a l -> In (Some a) l.
Proof.
  induction l as [|r l IH]; cbn; [lia|]. destruct r as [b|]; cbn [occ]; [|intros H; right; apply IH; lia].
  destruct (Nat.eqb a b) eqn:QQ; [apply Nat.eqb_eq in QQ; subst; now left|]. intros H. right. apply IH. lia.
Qed.
Lemma cnts_pos a l : 1 <= cnts a l -> exists i, nth_error l i = Some (Obj (Some a)).
Proof.
  induction l as [|r l IH]; cbn [cnts]; [lia|]. intros H.
  destruct (Z_le_gt_dec 1 (occs a r)) as [G|G].
  - exists O. destruct r as [|[b|]]; cbn in *; try lia.
    destruct (Nat.eqb a b) eqn:QQ; [apply Nat.eqb_eq in QQ; subst; reflexivity|lia].
  - destruct IH as [i Hi]; [lia|]. exists (S i). exact Hi.
Qed.
Lemma cnth_pos a h : 1 <= cnth a h -> exists b n k sl i, lookup h b = Some (Arr n k sl) /\ nth_error sl i = Some (Obj (Some a)).
Proof.
  induction h as [|o h IH]; cbn [cnth]; [lia|]. intros H.
  destruct (Z_le_gt_dec 1 (cntc a o)) as [G|G].
  - destruct o as [[|n k sl]|]; cbn [cntc] in G; try lia. destruct (cnts_pos _ _ G) as [i Hi].
    exists O, n, k, sl, i. split; [reflexivity|exact Hi].
  - destruct IH as (b & n & k & sl & i & Lb & Hi); [lia|]. exists (S b), n, k, sl, i. auto.
Qed.

Lemma R_reach s vals : R s vals -> forall a c, lookup (hp s) a = Some c -> reach (hp s) (vars s) a.
Proof.
  intros [L I]. set (h := hp s) in *.
  assert (HD : forall a c, lookup h a = Some c -> exists v, den h (Some a) v)
    by (intros a c Lc; eapply (I_den _ _ _ I); eauto).
  destruct (bound_sizes h HD (length h)) as [B HB].
  assert (G : forall k a v, (B - vsize v <= k)%nat -> den h (Some a) v -> reach h (vars s) a).
  { induction k as [|k IH]; intros a v Hk D.
    all: destruct (den_live _ _ _ D) as [c Lc]; pose proof (I_pos _ _ _ I _ _ Lc) as P; pose proof (I_rc _ _ _ I a) as RC;
      unfold rc in RC; rewrite Lc in RC; rewrite fst_combine in RC by assumption; cbn [map cntr] in RC.
    all: destruct (Z_le_gt_dec 1 (cntr a (vars s))) as [V|V]; [apply reach_var, cntr_pos; assumption|].
    all: destruct (cnth_pos a h) as (b & n & k' & sl & i & Lb & Hi); [pose proof (cntr_nn a (vars s)); lia|].
    all: destruct (HD _ _ Lb) as [w Dw]; inversion Dw as [| |b0 n0 rs js l Lb' J DS]; subst; [congruence|].
    all: rewrite Lb in Lb'; injection Lb' as -> -> ->.
    all: assert (Hi' : nth_error rs i = Some (Some a)).
    1,3: destruct (Nat.lt_ge_cases i (length rs)) as [Hlt|Hge];
      [rewrite nth_error_app1 in Hi by (rewrite map_length; assumption);
       destruct (nth_error rs i) as [r|] eqn:Nr; [erewrite map_nth_error in Hi by exact Nr; congruence|apply nth_error_None in Nr; lia]
      |rewrite nth_error_app2 in Hi by (rewrite map_length; assumption);
       apply nth_error_In in Hi; rewrite Forall_forall in J; destruct (J _ Hi); discriminate].
    all: assert (Nl : exists u, nth_error l i = Some u /\ den h (Some a) u).
    1,3: apply dens_forall in DS; clear - DS Hi'; revert i Hi'; induction DS; intros [|i] Hi'; cbn in *; try discriminate; [injection Hi' as ->; eauto|eauto].
    all: destruct Nl as (u & Nu & Du); rewrite (den_fun h _ _ Du _ D) in Nu; pose proof (vsize_in _ _ (nth_error_In _ _ Nu)) as VS;
      pose proof (HB b _ (lookup_lt _ _ _ Lb) Dw) as HBb.
    - lia.
    - apply (reach_elem _ _ b (length rs) i).
      + apply (IH b (VArr l)); [lia|exact Dw].
      + unfold size_of, arr_of. rewrite Lb. reflexivity.
      + apply nth_error_Some. congruence.
      + unfold get_slot, arr_of. rewrite Lb. cbn [bind]. rewrite (rd_nth _ _ _ Hi). reflexivity. }
  intros a c Lc. destruct (HD _ _ Lc) as [v D]. eapply (G (B - vsize v)%nat); eauto.
Qed.

Lemma no_roots h vs : Forall (fun r => r = None) vs -> forall a, ~ reach h vs a.
Proof.
  intros F a H. induction H as [a HI|]; [|assumption].
  rewrite Forall_forall in F. specialize (F _ HI). discriminate.
Qed.

(** Reading is a function. *)
Lemma reads_fun h : forall n v r w, (vsize v <= n)%nat -> reads h r v -> reads h r w -> v = w.
Proof.
  induction n as [|n IH]; intros v r w Hn A B; [destruct v; cbn in Hn; lia|].
  destruct A as [|a k z L|a l S A].
  - now inversion B.
  - inversion B as [|? ? ? L'|? ? S' ?]; subst; [congruence|]. unfold size_of, arr_of in S'. rewrite L in S'. discriminate.
  - inversion B as [|? ? ? L'|? m S' B']; subst.
    + unfold size_of, arr_of in S. rewrite L' in S. discriminate.
    + f_equal. rewrite S in S'. injection S' as LE.
      assert (forall i, nth_error l i = nth_error m i).
      { intros i. destruct (nth_error l i) as [v|] eqn:Nl; destruct (nth_error m i) as [u|] eqn:Nm; auto.
        - destruct (A _ _ Nl) as (r1 & G1 & R1). destruct (B' _ _ Nm) as (r2 & G2 & R2).
          rewrite G1 in G2. injection G2 as <-. f_equal.
          apply (IH v r1 u); auto. pose proof (vsize_in _ _ (nth_error_In _ _ Nl)). lia.
        - apply nth_error_None in Nm. assert (nth_error l i <> None) by congruence. apply nth_error_Some in H. lia.
        - apply nth_error_None in Nl. assert (nth_error m i <> None) by congruence. apply nth_error_Some in H. lia. }
      clear - H. revert m H. induction l as [|x l IHl]; intros [|y m] H; auto.
      * specialize (H O). discriminate.
      * specialize (H O). discriminate.
      * pose proof (H O) as H0. injection H0 as <-. f_equal. apply IHl. intros i. apply (H (S i)).
Qed.
