(** Proofs about the passes of the code generator. *)
From Coq Require Import List ZArith Bool PeanoNat Lia.
From Verif Require Import Base OpModel OpSpec.
Import ListNotations.
Local Open Scope nat_scope.

(** ** Expressions: induction, and variables mentioned *)

Section ExprInd.
  Context {V : Type} (Q : expr V -> Prop).
  Hypothesis HVar : forall x, Q (EVar x).
  Hypothesis HConst : forall v, Q (EConst v).
  Hypothesis HAttr : forall e a, Q e -> Q (EAttr e a).
  Hypothesis HOp : forall o es, Forall Q es -> Q (EOp o es).
  Hypothesis HCall : forall f es, Forall Q es -> Q (ECall f es).
  Hypothesis HMove : forall e, Q e -> Q (EMove e).

  Fixpoint expr_ind2 (e : expr V) : Q e :=
    match e with
    | EVar x => HVar x
    | EConst v => HConst v
    | EAttr e a => HAttr e a (expr_ind2 e)
    | EOp o es => HOp o es ((fix go l : Forall Q l :=
                               match l with
                               | [] => Forall_nil _
                               | x :: l' => Forall_cons _ (expr_ind2 x) (go l')
                               end) es)
    | ECall f es => HCall f es ((fix go l : Forall Q l :=
                               match l with
                               | [] => Forall_nil _
                               | x :: l' => Forall_cons _ (expr_ind2 x) (go l')
                               end) es)
    | EMove e => HMove e (expr_ind2 e)
    end.
End ExprInd.

Lemma existsb_uses {V} (x : nat) (es : list (expr V)) :
  Forall (fun e => e_uses x e = true <-> In_expr x e) es ->
  existsb (e_uses x) es = true <-> exists e, In e es /\ In_expr x e.
Proof.
  intros H. rewrite existsb_exists. rewrite Forall_forall in H. split.
  - intros (e & Hi & Hu). exists e. split; [exact Hi|]. now apply H.
  - intros (e & Hi & Hu). exists e. split; [exact Hi|]. now apply H.
Qed.

Lemma e_uses_spec {V} (x : nat) (e : expr V) : e_uses x e = true <-> In_expr x e.
Proof.
  induction e using expr_ind2; cbn [e_uses].
  - rewrite Nat.eqb_eq. split; [intros ->; constructor | intros H; now inversion H].
  - split; [discriminate | intros H; inversion H].
  - rewrite IHe. split; [now constructor | intros H; now inversion H].
  - rewrite (existsb_uses x es H). split.
    + intros (e & Hi & Hu). econstructor; eauto.
    + intros Hu. inversion Hu; subst. eauto.
  - rewrite (existsb_uses x es H). split.
    + intros (e & Hi & Hu). econstructor; eauto.
    + intros Hu. inversion Hu; subst. eauto.
  - rewrite IHe. split; [now constructor | intros H; now inversion H].
Qed.

Lemma e_uses_false {V} (x : nat) (e : expr V) : e_uses x e = false <-> ~ In_expr x e.
Proof.
  rewrite <- e_uses_spec. destruct (e_uses x e); split; intros; try easy.
Qed.

(** Variables a statement mentions. *)
Fixpoint s_uses {V} (x : nat) (s : stmt V) : bool :=
  match s with
  | SNop => false
  | SAlloca _ y i => ((y =? x)%nat || match i with Some e => e_uses x e | None => false end)%bool
  | SAssign _ l r => (e_uses x l || e_uses x r)%bool
  | SReturn _ e => e_uses x e
  | SExpr e => e_uses x e
  | SSeq a b => (s_uses x a || s_uses x b)%bool
  | SIf c a b => (e_uses x c || (s_uses x a || s_uses x b))%bool
  | SWhile c b => (e_uses x c || s_uses x b)%bool
  end.

(** ** Correspondence of scopes *)

Definition ext {R} (c c' : cst R) : Prop :=
  c_nxt c <= c_nxt c' /\ forall k, k < c_nxt c -> c_mem c' k = c_mem c k.

Definition frame {R} (b : nat) (c c' : cst R) : Prop :=
  c_nxt c <= c_nxt c' /\ forall k, k < b -> c_mem c' k = c_mem c k.

Lemma ext_refl {R} (c : cst R) : ext c c.
Proof. split; auto. Qed.

Lemma ext_trans {R} (a b c : cst R) : ext a b -> ext b c -> ext a c.
Proof.
  intros [H1 H2] [H3 H4]. split; [lia|]. intros k Hk. rewrite H4 by lia. now apply H2.
Qed.

Lemma frame_trans {R} n (a b c : cst R) : frame n a b -> frame n b c -> frame n a c.
Proof.
  intros [H1 H2] [H3 H4]. split; [lia|]. intros k Hk. rewrite H4 by lia. now apply H2.
Qed.

Lemma ext_frame {R} n (c c' : cst R) : n <= c_nxt c -> ext c c' -> frame n c c'.
Proof. intros H [H1 H2]. split; [easy|]. intros k Hk. apply H2. lia. Qed.

Lemma ext_st {R} (c c' : cst R) s : ext c c' -> ext c (set_st c' s).
Proof. intros [H1 H2]. split; [exact H1 | exact H2]. Qed.

Lemma push_ext {R} (c : cst R) v : ext c (snd (push c v)).
Proof.
  split; cbn; [lia|]. intros k Hk. unfold fupd. destruct (k =? c_nxt c)%nat eqn:E; [|easy].
  apply Nat.eqb_eq in E. lia.
Qed.

Lemma fupd_same {A} (m : nat -> A) n v : fupd m n v n = v.
Proof. unfold fupd. now rewrite Nat.eqb_refl. Qed.

Lemma fupd_other {A} (m : nat -> A) n v k : k <> n -> fupd m n v k = m k.
Proof. unfold fupd. intros H. apply Nat.eqb_neq in H. now rewrite H. Qed.

Record rel {R} (refs : nat -> bool) (D : nat -> Prop) (base : nat)
  (env : penv R) (ce : cenv R) (c : cst R) : Prop := {
  rl_none : forall x, env x = None -> ce x = None;
  rl_some : forall x v, env x = Some v ->
    exists b n, ce x = Some (b, LSlot n) /\ n < c_nxt c /\
                (~ D x -> c_mem c n = v) /\ (b = false -> base <= n);
  rl_sep : forall x y n b, ce x = Some (false, LSlot n) -> ce y = Some (b, LSlot n) -> x = y;
  rl_mode : forall x b l, ce x = Some (b, l) -> refs x = b;
  rl_base : base <= c_nxt c
}.

Lemma rel_ext {R} refs D base (env : penv R) ce c c' :
  rel refs D base env ce c -> ext c c' -> rel refs D base env ce c'.
Proof.
  intros [H1 H2 H3 H4 H5] [E1 E2]. split; auto; [|lia].
  intros x v Hx. destruct (H2 x v Hx) as (b & n & Hc & Hn & Hm & Hb).
  exists b, n. repeat split; auto; [lia|]. intros Hd. rewrite E2 by lia. auto.
Qed.

(** ** Operands one after another *)

Lemma each_sim {R : rt} {A} (I : cst R -> Prop) (ec : A -> cst R -> res (vl R) * cst R)
  (ep : A -> st R -> res (vl R) * st R) (l : list A) :
  (forall a c, In a l -> I c ->
     exists r c', ec a c = (r, c') /\ ep a (c_st c) = (r, c_st c') /\ ext c c') ->
  (forall c c', I c -> ext c c' -> I c') ->
  forall c, I c ->
  exists r c', each ec l c = (r, c') /\ each ep l (c_st c) = (r, c_st c') /\ ext c c'.
Proof.
  intros H HI. induction l as [|a l IH]; intros c Hc.
  - exists (Ok []), c. repeat split; auto.
  - destruct (H a c (or_introl eq_refl) Hc) as (r & c1 & E1 & E2 & X1).
    cbn [each]. rewrite E1, E2.
    destruct r as [v|x| |]; try (eexists _, c1; repeat split; (reflexivity || apply X1)).
    assert (Hc1 : I c1) by (eapply HI; eauto).
    destruct (IH (fun a' c' Hin => H a' c' (or_intror Hin)) c1 Hc1) as (r & c2 & F1 & F2 & X2).
    rewrite F1, F2.
    destruct r as [vs|x| |]; eexists _, c2; (split; [reflexivity|split; [reflexivity|]]);
      eapply ext_trans; eauto.
Qed.

(** What the arguments of a call become. *)
Fixpoint args_ok {R : rt} (m : nat -> vl R) (N0 lo hi : nat) (modes : list bool)
  (vs : list (vl R)) (ls : list (bool * loc (vl R))) : Prop :=
  match modes, vs, ls with
  | [], [], [] => lo <= hi
  | r :: modes', v :: vs', (b, LSlot k) :: ls' =>
      b = r /\ k < hi /\ m k = v /\
      exists lo', lo <= lo' /\ ((k < N0 /\ r = true /\ lo' = lo) \/ (lo <= k < lo')) /\
                  args_ok m N0 lo' hi modes' vs' ls'
  | _, _, _ => False
  end.

Lemma args_ok_bound {R : rt} m N0 hi modes :
  forall lo (vs : list (vl R)) ls, args_ok m N0 lo hi modes vs ls -> lo <= hi.
Proof.
  induction modes as [|r modes IH]; intros lo vs ls H; destruct vs, ls as [|[b [k|o a]] ls]; cbn in H; try easy.
  destruct H as (_ & _ & _ & lo' & Hl & _ & H). apply IH in H. lia.
Qed.

Lemma args_ok_ext {R : rt} (c c' : cst R) N0 modes :
  ext c c' -> forall lo vs ls, args_ok (c_mem c) N0 lo (c_nxt c) modes vs ls ->
  args_ok (c_mem c') N0 lo (c_nxt c') modes vs ls.
Proof.
  intros [E1 E2]. induction modes as [|r modes IH]; intros lo vs ls H;
    destruct vs, ls as [|[b [k|o a]] ls]; cbn in *; try easy; [lia|].
  destruct H as (-> & Hk & Hv & lo' & Hl & Hor & H).
  repeat split; [lia| rewrite E2; auto|]. exists lo'. repeat split; auto.
Qed.

Lemma args_ok_lower {R : rt} m N0 hi modes :
  forall lo lo1 (vs : list (vl R)) ls, lo <= lo1 ->
  args_ok m N0 lo1 hi modes vs ls -> args_ok m N0 lo hi modes vs ls.
Proof.
  induction modes as [|r modes IH]; intros lo lo1 vs ls Hle H;
    destruct vs, ls as [|[b [k|o a]] ls]; cbn in *; try easy; [lia|].
  destruct H as (-> & Hk & Hv & lo' & Hl & Hor & H).
  repeat split; auto.
  destruct Hor as [(Ha & Hb & Hc)|Hor].
  - exists lo. repeat split; auto. eapply IH; [|exact H]. lia.
  - exists lo'. repeat split; auto; [lia|]. right. lia.
Qed.

(** The scope of the called function corresponds to Python's. *)
Lemma bind_lookup {R : rt} m N0 hi (ps : list (nat * ty)) (ref : nat -> bool) :
  forall lo (vs : list (vl R)) ls,
  N0 <= lo ->
  args_ok m N0 lo hi (map (fun p => ref (fst p)) ps) vs ls ->
  let cps := map (fun p => (fst p, snd p, ref (fst p))) ps in
  (forall x, py_bind ps vs x = None -> @bind_params R cps ls x = None) /\
  (forall x v, py_bind ps vs x = Some v ->
     exists n, @bind_params R cps ls x = Some (ref x, LSlot n) /\ n < hi /\ m n = v /\
               ((n < N0 /\ ref x = true) \/ lo <= n)) /\
  (forall x b l, @bind_params R cps ls x = Some (b, l) -> b = ref x) /\
  (forall x y n b, @bind_params R cps ls x = Some (false, LSlot n) ->
     @bind_params R cps ls y = Some (b, LSlot n) -> x = y).
Proof.
  induction ps as [|[z t] ps IH]; intros lo vs ls H0 H cps; subst cps.
  - destruct vs, ls; cbn in H; easy.
  - destruct vs as [|v vs], ls as [|[b [k|o a]] ls]; cbn in H; try easy.
    destruct H as (-> & Hk & Hv & lo' & Hl & Hor & H).
    destruct (IH lo' vs ls ltac:(lia) H) as (I1 & I2 & I3 & I4).
    cbn [map py_bind bind_params fst snd].
    split; [|split; [|split]].
    + intros x Hx. destruct (x =? z)%nat; [discriminate|auto].
    + intros x w Hx. destruct (x =? z)%nat eqn:E.
      * apply Nat.eqb_eq in E. subst x. injection Hx as <-. exists k.
        repeat split; auto. destruct Hor as [(A & B & _)|A]; [now left|right; lia].
      * destruct (I2 x w Hx) as (n & A & B & C & D). exists n. repeat split; auto.
        destruct D as [D|D]; [now left|right; lia].
    + intros x b l Hx. destruct (x =? z)%nat eqn:E.
      * apply Nat.eqb_eq in E. subst x. now injection Hx as <- <-.
      * eapply I3; eauto.
    + intros x y n b Hx Hy.
      destruct (x =? z)%nat eqn:Ex, (y =? z)%nat eqn:Ey;
        try apply Nat.eqb_eq in Ex; try apply Nat.eqb_eq in Ey; try congruence.
      * injection Hx as Hr <-. exfalso.
        assert (Hy' : exists w, py_bind ps vs y = Some w).
        { destruct (py_bind ps vs y) eqn:Ep; [eauto|]. rewrite (I1 y Ep) in Hy. discriminate. }
        destruct Hy' as (w & Hw). destruct (I2 y w Hw) as (n' & A & _ & _ & D).
        rewrite A in Hy. injection Hy as _ ->.
        destruct Hor as [(A1 & A2 & _)|A1]; [congruence|].
        destruct D as [(D & _)|D]; lia.
      * injection Hy as Hr ->. exfalso.
        assert (Hx' : exists w, py_bind ps vs x = Some w).
        { destruct (py_bind ps vs x) eqn:Ep; [eauto|]. rewrite (I1 x Ep) in Hx. discriminate. }
        destruct Hx' as (w & Hw). destruct (I2 x w Hw) as (n' & A & _ & _ & D).
        rewrite A in Hx. injection Hx as Hf ->.
        destruct D as [(D & D')|D]; [congruence|].
        destruct Hor as [(A1 & A2 & _)|A1]; lia.
      * eapply I4; eauto.
Qed.

Lemma args_rel {R : rt} (c : cst R) N0 (ps : list (nat * ty)) ref vs ls :
  N0 <= c_nxt c ->
  args_ok (c_mem c) N0 N0 (c_nxt c) (map (fun p => ref (fst p)) ps) vs ls ->
  rel ref (fun _ => False) N0 (py_bind ps vs)
    (bind_params (map (fun p => (fst p, snd p, ref (fst p))) ps) ls) c.
Proof.
  intros HN H. destruct (bind_lookup (c_mem c) N0 (c_nxt c) ps ref N0 vs ls (le_n _) H)
    as (I1 & I2 & I3 & I4).
  split; auto.
  - intros x v Hx. destruct (I2 x v Hx) as (n & A & B & C & D). exists (ref x), n.
    repeat split; auto. intros Hf. destruct D as [(D & D')|D]; [congruence|easy].
  - intros x b l Hx. symmetry. eapply I3; eauto.
Qed.

(** ** Statements from which arguments are moved *)

(** What a statement the pass marks may move: an argument that is not mentioned
    afterwards ([K]), or is assigned to itself. *)
Definition Step_safe {V} (refs : nat -> bool) (M args : list nat) (s : stmt V) (K : nat -> Prop)
  : Prop :=
  match s with
  | SAlloca id x (Some (EVar a)) =>
      memb id M = true -> memb a args = true -> refs a = false -> ~ K a
  | SAssign id l (EVar a) =>
      memb id M = true -> memb a args = true -> refs a = false -> l = EVar a \/ ~ K a
  | _ => True
  end.

Fixpoint Safe {V} (refs : nat -> bool) (M args : list nat) (s : stmt V) (K : nat -> Prop) : Prop :=
  match s with
  | SSeq a b => Safe refs M args a (fun x => s_uses x b = true \/ K x) /\ Safe refs M args b K
  | SIf _ _ _ | SWhile _ _ => True
  | _ => Step_safe refs M args s K
  end.

Lemma ao_mutate_nil {V} args (s : stmt V) : ao_mutate [] args s = s.
Proof.
  induction s; cbn; auto.
  - destruct init; reflexivity.
  - now rewrite IHs1, IHs2.
Qed.

Lemma Safe_nil {V} refs args (s : stmt V) : forall K, Safe refs [] args s K.
Proof.
  induction s; intros K; cbn; auto.
  - destruct init as [[]|]; cbn; auto; discriminate.
  - destruct rhs; cbn; auto; discriminate.
Qed.

Definition not_attr {V} (a : bool * expr V) : Prop :=
  fst a = true -> match snd a with EAttr _ _ => False | _ => True end.

Definition CQ {V} (C : list (cfunc V)) (f : nat) (es : list (expr V)) : Prop :=
  forall g, nth_error C f = Some g -> Forall not_attr (combine (map snd (c_params g)) es).

Definition fok {V} (C : list (cfunc V)) (f : func V) (g : cfunc V) : Prop :=
  exists refs M args,
    c_params g = map (fun p => (fst p, snd p, refs (fst p))) (f_params f) /\
    c_body g = ao_mutate M args (f_body f) /\
    (forall x, Rebinds x (f_body f) -> refs x = false) /\
    Safe refs M args (f_body f) (fun _ => False) /\
    Calls_s (CQ C) (f_body f).

Lemma Forall2_nth {A B} (Q : A -> B -> Prop) l l' f a :
  Forall2 Q l l' -> nth_error l f = Some a -> exists b, nth_error l' f = Some b /\ Q a b.
Proof.
  intros H. revert f. induction H as [|x y l l' Hxy _ IH]; intros [|f] Hf; cbn in *; try discriminate.
  - injection Hf as <-. eauto.
  - eauto.
Qed.

Lemma Forall2_nth_none {A B} (Q : A -> B -> Prop) l l' f :
  Forall2 Q l l' -> nth_error l f = None -> nth_error l' f = None.
Proof.
  intros H. revert f. induction H as [|x y l l' Hxy _ IH]; intros [|f] Hf; cbn in *; try discriminate; auto.
Qed.

Section Sim.
  Context (R : rt) (P : prog (vl R)) (C : list (cfunc (vl R))).
  Hypothesis HPC : Forall2 (fok C) P C.

  Definition EV (n : nat) : Prop :=
    forall refs D base (env : penv R) ce c e,
      rel refs D base env ce c -> (forall x, D x -> e_uses x e = false) -> Calls_e (CQ C) e ->
      exists r c', c_eval R C n ce e c = (r, c') /\ py_eval R P n env e (c_st c) = (r, c_st c') /\
                   ext c c'.

  Definition AR (n : nat) : Prop :=
    forall refs D base (env : penv R) ce c0 c m e,
      rel refs D base env ce c0 -> ext c0 c -> (forall x, D x -> e_uses x e = false) ->
      Calls_e (CQ C) e -> not_attr (m, e) ->
      exists r c', py_arg R P n env e (c_st c) = (r, c_st c') /\ ext c c' /\
        match r with
        | Ok v => exists k, c_arg R C n ce m e c = (Ok (m, LSlot k), c') /\ k < c_nxt c' /\
                            c_mem c' k = v /\
                            ((k < c_nxt c0 /\ m = true /\ c' = c) \/ c_nxt c <= k)
        | Exn x => c_arg R C n ce m e c = (Exn x, c')
        | OOB => c_arg R C n ce m e c = (OOB, c')
        | OutOfFuel => c_arg R C n ce m e c = (OutOfFuel, c')
        end.

  Definition EX (n : nat) : Prop :=
    forall refs M args D base (env : penv R) ce c s K,
      rel refs D base env ce c ->
      (forall x, D x -> s_uses x s = false /\ ~ K x) ->
      (forall x, Rebinds x s -> refs x = false) ->
      Safe refs M args s K -> Calls_s (CQ C) s ->
      exists r c', py_exec R P n env s (c_st c) = (r, c_st c') /\ frame base c c' /\
        match r with
        | Ok (ov, env') => exists ce' D', c_exec R C n ce (ao_mutate M args s) c = (Ok (ov, ce'), c') /\
                             rel refs D' base env' ce' c' /\ (forall x, D' x -> ~ K x)
        | Exn x => c_exec R C n ce (ao_mutate M args s) c = (Exn x, c')
        | OOB => c_exec R C n ce (ao_mutate M args s) c = (OOB, c')
        | OutOfFuel => c_exec R C n ce (ao_mutate M args s) c = (OutOfFuel, c')
        end.

  Lemma fun_pair f g : nth_error P f = Some g -> exists h, nth_error C f = Some h /\ fok C g h.
  Proof.
    intros H. eapply Forall2_nth; eauto.
  Qed.

  Lemma fun_none f : nth_error P f = None -> nth_error C f = None.
  Proof.
    intros H. eapply Forall2_nth_none; eauto.
  Qed.

  Lemma eval_var refs D base (env : penv R) ce c x :
    rel refs D base env ce c -> ~ D x ->
    (exists v b k, env x = Some v /\ ce x = Some (b, LSlot k) /\ k < c_nxt c /\ c_mem c k = v) \/
    (env x = None /\ ce x = None).
  Proof.
    clear HPC C P.
    intros H Hd. destruct (env x) as [v|] eqn:E.
    - left. destruct (rl_some _ _ _ _ _ _ H x v E) as (b & k & H1 & H2 & H3 & H4).
      exists v, b, k. auto.
    - right. split; auto. eapply rl_none; eauto.
  Qed.

  Lemma each_args n (HAR : AR n) refs D base (env : penv R) ce c0 :
    rel refs D base env ce c0 ->
    forall l c, ext c0 c ->
    Forall (fun a => (forall x, D x -> e_uses x (snd a) = false) /\ Calls_e (CQ C) (snd a) /\
                     not_attr a) l ->
    exists r c', each (py_arg R P n env) (map snd l) (c_st c) = (r, c_st c') /\ ext c c' /\
      match r with
      | Ok vs => exists ls, each (fun a => c_arg R C n ce (fst a) (snd a)) l c = (Ok ls, c') /\
                            args_ok (c_mem c') (c_nxt c0) (c_nxt c) (c_nxt c') (map fst l) vs ls
      | Exn x => each (fun a => c_arg R C n ce (fst a) (snd a)) l c = (Exn x, c')
      | OOB => each (fun a => c_arg R C n ce (fst a) (snd a)) l c = (OOB, c')
      | OutOfFuel => each (fun a => c_arg R C n ce (fst a) (snd a)) l c = (OutOfFuel, c')
      end.
  Proof.
    intros Hrel. induction l as [|[m e] l IH]; intros c Hx HF.
    - exists (Ok []), c. split; [reflexivity|]. split; [apply ext_refl|]. exists [].
      split; [reflexivity|]. cbn. lia.
    - inversion HF as [|a l' (Hd & Hca & Hna) HF']; subst.
      destruct (HAR refs D base env ce c0 c m e Hrel Hx Hd Hca Hna) as (r & c1 & E1 & X1 & E2).
      cbn [map each fst snd]. rewrite E1.
      destruct r as [v|x| |];
        try (eexists _, c1; split; [reflexivity|]; split; [exact X1|]; cbn; rewrite E2; reflexivity).
      destruct E2 as (k & E2 & Hk & Hv & Hor). rewrite E2.
      destruct (IH c1 (ext_trans _ _ _ Hx X1) HF') as (r & c2 & F1 & X2 & F2). rewrite F1.
      destruct r as [vs|x| |];
        try (eexists _, c2; split; [reflexivity|]; split; [eapply ext_trans; eauto|];
             rewrite F2; reflexivity).
      destruct F2 as (ls & F2 & F3). rewrite F2.
      eexists _, c2; split; [reflexivity|]; split; [eapply ext_trans; eauto|].
      eexists. split; [reflexivity|]. cbn [args_ok map fst].
      destruct X1 as [X11 X12], X2 as [X21 X22].
      repeat split; [lia| rewrite X22 by lia; exact Hv |].
      destruct Hor as [(A1 & A2 & ->)|A1].
      + exists (c_nxt c). repeat split; [lia| left; auto | exact F3].
      + exists (c_nxt c1). repeat split; [lia | right; lia | exact F3].
  Qed.

  Lemma AR_step n : EV n -> AR (S n).
  Proof.
    intros HEV refs D base env ce c0 c m e Hrel Hx Hd Hca Hna.
    pose proof (rel_ext _ _ _ _ _ _ _ Hrel Hx) as Hrel'.
    destruct e as [x|v|e1 a|o es|f es|e1].
    - assert (Hnd : ~ D x).
      { intros HD. apply Hd in HD. cbn in HD. rewrite Nat.eqb_refl in HD. discriminate. }
      cbn [py_arg c_arg].
      destruct (eval_var _ _ _ _ _ _ x Hrel Hnd) as [(v & b & k & H1 & H2 & H3 & H4)|[H1 H2]];
        rewrite H1, H2.
      + destruct m.
        * exists (Ok v), c. split; [reflexivity|]. split; [apply ext_refl|].
          exists k. destruct Hx as [X1 X2]. repeat split; [lia| rewrite X2; auto | left; auto].
        * destruct Hx as [X1 X2]. cbn [c_read andthen]. rewrite (X2 k H3), H4.
          exists (Ok v), (snd (push c v)). split; [reflexivity|]. split; [apply push_ext|].
          exists (c_nxt c). split; [reflexivity|]. cbn. repeat split; [lia| apply fupd_same | lia].
      + exists OOB, c. split; [reflexivity|]. split; [apply ext_refl|]. now destruct m.
    - cbn [py_arg c_arg]. exists (Ok v), (snd (push c v)). split; [reflexivity|].
      split; [apply push_ext|]. exists (c_nxt c).
      split; [destruct m; reflexivity|]. cbn. repeat split; [lia | apply fupd_same | lia].
    - destruct m; [exfalso; apply Hna; reflexivity|].
      destruct (HEV _ _ _ _ _ _ _ Hrel' Hd Hca) as (r & c1 & E1 & E2 & X1).
      cbn [py_arg c_arg]. rewrite E1, E2.
      destruct r as [v|x| |]; cbn [andthen].
      2-4: eexists _, c1; split; [reflexivity|]; split; [exact X1|reflexivity].
      eexists _, (snd (push c1 v)). split; [reflexivity|].
      split; [eapply ext_trans; [exact X1 | apply push_ext]|]. exists (c_nxt c1).
      split; [reflexivity|]. destruct X1. cbn. repeat split; [lia | apply fupd_same | lia].
    - destruct (HEV _ _ _ _ _ _ _ Hrel' Hd Hca) as (r & c1 & E1 & E2 & X1).
      cbn [py_arg c_arg]. rewrite E1, E2.
      destruct r as [v|x| |]; cbn [andthen].
      2-4: eexists _, c1; split; [reflexivity|]; split; [exact X1|destruct m; reflexivity].
      eexists _, (snd (push c1 v)). split; [reflexivity|].
      split; [eapply ext_trans; [exact X1 | apply push_ext]|]. exists (c_nxt c1).
      split; [destruct m; reflexivity|]. destruct X1. cbn. repeat split; [lia | apply fupd_same | lia].
    - destruct (HEV _ _ _ _ _ _ _ Hrel' Hd Hca) as (r & c1 & E1 & E2 & X1).
      cbn [py_arg c_arg]. rewrite E1, E2.
      destruct r as [v|x| |]; cbn [andthen].
      2-4: eexists _, c1; split; [reflexivity|]; split; [exact X1|destruct m; reflexivity].
      eexists _, (snd (push c1 v)). split; [reflexivity|].
      split; [eapply ext_trans; [exact X1 | apply push_ext]|]. exists (c_nxt c1).
      split; [destruct m; reflexivity|]. destruct X1. cbn. repeat split; [lia | apply fupd_same | lia].
    - inversion Hca.
  Qed.

  Lemma AR_0 : AR 0.
  Proof.
    intros refs D base env ce c0 c m e Hrel Hx Hd Hca Hna.
    destruct e as [x|v|e1 a|o es|f es|e1].
    - assert (Hnd : ~ D x).
      { intros HD. apply Hd in HD. cbn in HD. rewrite Nat.eqb_refl in HD. discriminate. }
      cbn [py_arg c_arg].
      destruct (eval_var _ _ _ _ _ _ x Hrel Hnd) as [(v & b & k & H1 & H2 & H3 & H4)|[H1 H2]];
        rewrite H1, H2.
      + destruct m.
        * exists (Ok v), c. split; [reflexivity|]. split; [apply ext_refl|].
          exists k. destruct Hx as [X1 X2]. repeat split; [lia| rewrite X2; auto | left; auto].
        * destruct Hx as [X1 X2]. cbn [c_read andthen]. rewrite (X2 k H3), H4.
          exists (Ok v), (snd (push c v)). split; [reflexivity|]. split; [apply push_ext|].
          exists (c_nxt c). split; [reflexivity|]. cbn. repeat split; [lia| apply fupd_same | lia].
      + exists OOB, c. split; [reflexivity|]. split; [apply ext_refl|]. now destruct m.
    - cbn [py_arg c_arg]. exists (Ok v), (snd (push c v)). split; [reflexivity|].
      split; [apply push_ext|]. exists (c_nxt c).
      split; [destruct m; reflexivity|]. cbn. repeat split; [lia | apply fupd_same | lia].
    - eexists OutOfFuel, c. split; [reflexivity|]. split; [apply ext_refl|]. now destruct m.
    - eexists OutOfFuel, c. split; [reflexivity|]. split; [apply ext_refl|]. now destruct m.
    - eexists OutOfFuel, c. split; [reflexivity|]. split; [apply ext_refl|]. now destruct m.
    - inversion Hca.
  Qed.

  Lemma EV_leaf n refs D base (env : penv R) ce c e :
    rel refs D base env ce c -> (forall x, D x -> e_uses x e = false) ->
    (exists x, e = EVar x) \/ (exists v, e = EConst v) ->
    exists r c', c_eval R C n ce e c = (r, c') /\ py_eval R P n env e (c_st c) = (r, c_st c') /\
                 ext c c'.
  Proof.
    intros Hrel Hd [[x ->]|[v ->]].
    - assert (Hnd : ~ D x).
      { intros HD. apply Hd in HD. cbn in HD. rewrite Nat.eqb_refl in HD. discriminate. }
      destruct (eval_var _ _ _ _ _ _ x Hrel Hnd) as [(v & b & k & H1 & H2 & H3 & H4)|[H1 H2]];
        destruct n; cbn [c_eval py_eval]; rewrite H1, H2.
      + exists (Ok v), c. cbn. rewrite H4. split; [reflexivity|]. split; [reflexivity|apply ext_refl].
      + exists (Ok v), c. cbn. rewrite H4. split; [reflexivity|]. split; [reflexivity|apply ext_refl].
      + exists OOB, c. split; [reflexivity|]. split; [reflexivity|apply ext_refl].
      + exists OOB, c. split; [reflexivity|]. split; [reflexivity|apply ext_refl].
    - exists (Ok v), c. destruct n; (split; [reflexivity|]; split; [reflexivity|apply ext_refl]).
  Qed.

  Lemma EV_0 : EV 0.
  Proof.
    intros refs D base env ce c e Hrel Hd Hca.
    destruct e; try (eapply EV_leaf; eauto; fail);
      (exists OutOfFuel, c; split; [reflexivity|]; split; [reflexivity|apply ext_refl]).
  Qed.

  Lemma snd_combine {A B} (l : list A) (l' : list B) :
    length l = length l' -> map snd (combine l l') = l'.
  Proof.
    clear. revert l'. induction l; intros [|b l'] H; cbn in *; try discriminate; auto.
    f_equal. apply IHl. lia.
  Qed.

  Lemma fst_combine {A B} (l : list A) (l' : list B) :
    length l = length l' -> map fst (combine l l') = l.
  Proof.
    clear. revert l'. induction l; intros [|b l'] H; cbn in *; try discriminate; auto.
    f_equal. apply IHl. lia.
  Qed.

  Lemma EV_step n : EV n -> AR n -> EX n -> EV (S n).
  Proof.
    intros HEV HAR HEX refs D base env ce c e Hrel Hd Hca.
    destruct e as [x|v|e1 a|o es|f es|e1].
    - eapply EV_leaf; eauto.
    - eapply EV_leaf; eauto.
    - inversion Hca; subst.
      destruct (HEV _ _ _ _ _ _ e1 Hrel Hd ltac:(assumption)) as (r & c1 & E1 & E2 & X1).
      cbn [c_eval py_eval]. rewrite E1, E2.
      destruct r; cbn [andthen c_read]; eexists _, c1; (split; [reflexivity|]; split; [reflexivity|exact X1]).
    - inversion Hca as [| | |o' es' HF|]; subst.
      destruct (each_sim (fun c => rel refs D base env ce c) (c_eval R C n ce) (py_eval R P n env) es)
        with (c := c) as (r & c1 & E1 & E2 & X1).
      { intros e c1 Hin Hr. eapply HEV; eauto.
        - intros x Hx. apply Hd in Hx. cbn [e_uses] in Hx.
          destruct (e_uses x e) eqn:E; auto.
          assert (existsb (e_uses x) es = true) by (apply existsb_exists; eauto). congruence.
        - rewrite Forall_forall in HF. auto. }
      { intros c1 c2 Hr Hx. eapply rel_ext; eauto. }
      { exact Hrel. }
      cbn [c_eval py_eval]. rewrite E1, E2.
      destruct r as [vs|x| |]; cbn [andthen].
      2-4: eexists _, c1; (split; [reflexivity|]; split; [reflexivity|exact X1]).
      destruct (r_op R o vs (c_st c1)) as [r s']. cbn [fst snd].
      eexists _, (set_st c1 s'). split; [reflexivity|]. split; [reflexivity|]. now apply ext_st.
    - inversion Hca as [| | | |f' es' HQ HF]; subst.
      cbn [c_eval py_eval].
      destruct (nth_error P f) as [g|] eqn:Eg.
      2:{ rewrite (fun_none f Eg). eexists _, c. split; [reflexivity|]. split; [reflexivity|apply ext_refl]. }
      destruct (fun_pair f g Eg) as (h & Eh & refs' & M & args & Hp & Hb & Hrb & Hsafe & Hcs).
      rewrite Eh.
      assert (Hlen : length (c_params h) = length (f_params g)) by (rewrite Hp, map_length; reflexivity).
      rewrite Hlen.
      destruct (length es =? length (f_params g))%nat eqn:El.
      2:{ eexists _, c. split; [reflexivity|]. split; [reflexivity|apply ext_refl]. }
      apply Nat.eqb_eq in El.
      assert (Hl2 : length (map snd (c_params h)) = length es) by (rewrite map_length; lia).
      destruct (each_args n HAR refs D base env ce c Hrel (combine (map snd (c_params h)) es) c
                  (ext_refl c)) as (r & c1 & F1 & X1 & F2).
      { rewrite Forall_forall. intros [m e] Hin. cbn [snd].
        pose proof (in_combine_r _ _ _ _ Hin) as Hin2. split; [|split].
        - intros x Hx. apply Hd in Hx. cbn [e_uses] in Hx.
          destruct (e_uses x e) eqn:E; auto.
          assert (existsb (e_uses x) es = true) by (apply existsb_exists; eauto). congruence.
        - rewrite Forall_forall in HF. auto.
        - specialize (HQ h Eh). rewrite Forall_forall in HQ. auto. }
      rewrite snd_combine in F1 by exact Hl2. rewrite F1.
      destruct r as [vs|x| |]; cbn [andthen].
      2-4: rewrite F2; eexists _, c1; (split; [reflexivity|]; split; [reflexivity|exact X1]).
      destruct F2 as (ls & F2 & F3). rewrite F2. cbn [andthen].
      rewrite fst_combine in F3 by exact Hl2.
      assert (Hmodes : map snd (c_params h) = map (fun p => refs' (fst p)) (f_params g)).
      { rewrite Hp, map_map. reflexivity. }
      rewrite Hmodes in F3.
      pose proof (args_rel c1 (c_nxt c) (f_params g) refs' vs ls (proj1 X1) F3) as Hrel1.
      rewrite <- Hp in Hrel1.
      destruct (HEX refs' M args _ _ _ _ _ (f_body g) (fun _ => False) Hrel1
                  ltac:(intros x []) Hrb Hsafe Hcs) as (r & c2 & G1 & (X21 & X22) & G2).
      rewrite <- Hb in G2. rewrite G1.
      assert (X : ext c c2).
      { destruct X1 as [X11 X12]. split; [lia|]. intros k Hk. rewrite X22 by exact Hk. auto. }
      destruct r as [[ov env']|x| |].
      2-4: rewrite G2; eexists _, c2; (split; [reflexivity|]; split; [reflexivity|exact X]).
      destruct G2 as (ce' & D' & G2 & _ & _). rewrite G2. cbn [andthen fst].
      eexists _, c2; (split; [reflexivity|]; split; [reflexivity|exact X]).
    - inversion Hca.
  Qed.
  Lemma rel_alloca refs D base (env : penv R) ce c x v :
    rel refs D base env ce c -> refs x = false ->
    rel refs D base (fupd env x (Some v)) (fupd ce x (Some (false, LSlot (c_nxt c)))) (snd (push c v)).
  Proof.
    clear HPC P C.
    intros [H1 H2 H3 H4 H5] Hx. split.
    - intros y. unfold fupd. destruct (y =? x)%nat; [discriminate|auto].
    - intros y w Hy. unfold fupd in *. destruct (y =? x)%nat eqn:E.
      + injection Hy as <-. exists false, (c_nxt c). cbn. repeat split; auto.
        intros _. apply fupd_same.
      + destruct (H2 y w Hy) as (b & n & A1 & A2 & A3 & A4). exists b, n. cbn.
        repeat split; auto. intros Hd. rewrite fupd_other by lia. auto.
    - intros y z n b. unfold fupd.
      assert (Hlt : forall u b' n', ce u = Some (b', LSlot n') -> n' < c_nxt c).
      { intros u b' n' Hu. destruct (env u) as [w|] eqn:Ew.
        - destruct (H2 u w Ew) as (b1 & n1 & A1 & A2 & _). rewrite A1 in Hu. injection Hu as _ <-. exact A2.
        - rewrite (H1 u Ew) in Hu. discriminate. }
      destruct (y =? x)%nat eqn:Ey, (z =? x)%nat eqn:Ez;
        try apply Nat.eqb_eq in Ey; try apply Nat.eqb_eq in Ez; intros Hy Hz; try congruence.
      + injection Hy as <-. apply Hlt in Hz. lia.
      + injection Hz as _ <-. apply Hlt in Hy. lia.
      + eapply H3; eauto.
    - intros y b l. unfold fupd. destruct (y =? x)%nat eqn:E; [|apply H4].
      apply Nat.eqb_eq in E. subst y. intros [= <- <-]. exact Hx.
    - cbn. lia.
  Qed.

  Lemma rel_write refs D base (env : penv R) ce c x v w k :
    rel refs D base env ce c -> env x = Some w -> ce x = Some (false, LSlot k) ->
    rel refs D base (fupd env x (Some v)) ce (set_slot c k v).
  Proof.
    clear HPC P C.
    intros [H1 H2 H3 H4 H5] Hx Hk. split; auto.
    - intros y Hy. unfold fupd in Hy. destruct (y =? x)%nat; [discriminate|auto].
    - intros y u Hy. unfold fupd in Hy. destruct (y =? x)%nat eqn:E.
      + apply Nat.eqb_eq in E. subst y. injection Hy as <-.
        destruct (H2 x w Hx) as (b & n & A1 & A2 & A3 & A4). rewrite Hk in A1. injection A1 as <- <-.
        exists false, k. cbn. repeat split; auto. intros _. apply fupd_same.
      + destruct (H2 y u Hy) as (b & n & A1 & A2 & A3 & A4). exists b, n. cbn.
        repeat split; auto. intros Hd. rewrite fupd_other; auto.
        intros ->. apply Nat.eqb_neq in E. apply E. symmetry. eapply H3; eauto.
  Qed.

  Lemma rel_kill refs D base (env : penv R) ce c a k w :
    rel refs D base env ce c -> ce a = Some (false, LSlot k) ->
    rel refs (fun y => D y \/ y = a) base env ce (set_slot c k w).
  Proof.
    clear HPC P C.
    intros [H1 H2 H3 H4 H5] Hk. split; auto.
    intros y u Hy. destruct (H2 y u Hy) as (b & n & A1 & A2 & A3 & A4). exists b, n. cbn.
    repeat split; auto. intros Hd. rewrite fupd_other.
    - apply A3. tauto.
    - intros ->. apply Hd. right. symmetry. eapply H3; eauto.
  Qed.

  Lemma rel_owned refs D base (env : penv R) ce c a k b :
    rel refs D base env ce c -> ce a = Some (b, LSlot k) ->
    k < c_nxt c /\ (b = false -> base <= k).
  Proof.
    clear HPC P C.
    intros H Hk. destruct (env a) as [v|] eqn:E.
    - destruct (rl_some _ _ _ _ _ _ H a v E) as (b' & n & A1 & A2 & A3 & A4).
      rewrite Hk in A1. injection A1 as <- <-. auto.
    - rewrite (rl_none _ _ _ _ _ _ H a E) in Hk. discriminate.
  Qed.

  Lemma rel_st refs D base (env : penv R) ce c s :
    rel refs D base env ce c -> rel refs D base env ce (set_st c s).
  Proof. clear HPC P C. intros [H1 H2 H3 H4 H5]. split; auto. Qed.

  Lemma rel_weaken refs (D D' : nat -> Prop) base (env : penv R) ce c :
    (forall x, D x -> D' x) -> rel refs D base env ce c -> rel refs D' base env ce c.
  Proof.
    clear HPC P C. intros Hs [H1 H2 H3 H4 H5]. split; auto.
    intros x v Hx. destruct (H2 x v Hx) as (b & n & A1 & A2 & A3 & A4). exists b, n.
    repeat split; auto.
  Qed.

  Lemma frame_slot (base k : nat) (c : cst R) v : base <= k -> frame base c (set_slot c k v).
  Proof. clear HPC P C. intros H. split; cbn; [lia|]. intros j Hj. apply fupd_other. lia. Qed.

  (** What the pass makes of the stored expression. *)
  Lemma marked_cases (M args : list nat) id (r : expr (vl R)) ce refs D base env c :
    rel refs D base env ce c -> Calls_e (CQ C) r ->
    let r' := if (memb id M && is_arg args r)%bool then EMove r else r in
    unmove r' = r /\
    ((forall v c', moved_from ce r' v c' = c') \/
     (exists a k, r = EVar a /\ r' = EMove (EVar a) /\ ce a = Some (false, LSlot k) /\
                  memb id M = true /\ memb a args = true /\ refs a = false)).
  Proof.
    intros Hrel Hca r'. subst r'. destruct (memb id M && is_arg args r)%bool eqn:E.
    - apply andb_prop in E. destruct E as [E1 E2].
      destruct r; cbn in E2; try discriminate. split; [reflexivity|].
      cbn [moved_from]. destruct (ce x) as [[[|] [k|o a]]|] eqn:Ex; try (left; reflexivity).
      right. exists x, k. repeat split; auto. eapply rl_mode; eauto.
    - destruct r; try (split; [reflexivity|left; reflexivity]). inversion Hca.
  Qed.

  Lemma EX_step n : EV n -> EX n -> EX (S n).
  Proof.
    intros HEV HEX refs M args D base env ce c s K Hrel Hd Hrb Hsafe Hcs.
    destruct s as [|id x i|id l r|id e|e|a b|e a b|e b].
    - (* empty *)
      exists (Ok (None, env)), c. split; [reflexivity|]. split; [split; auto|].
      exists ce, D. split; [reflexivity|]. split; [exact Hrel|]. intros y Hy. apply (Hd y Hy).
    - (* declaration *)
      assert (Hx : refs x = false) by (apply Hrb; constructor).
      destruct i as [e|].
      + inversion Hcs as [| |id' x' e' Hca| | | | | |]; subst.
        destruct (marked_cases M args id e ce refs D base env c Hrel Hca) as [Hu Hmv].
        assert (Hm : ao_mutate M args (SAlloca id x (Some e)) =
                     SAlloca id x (Some (if (memb id M && is_arg args e)%bool then EMove e else e))).
        { cbn [ao_mutate]. now destruct (memb id M && is_arg args e)%bool. }
        rewrite Hm. clear Hm.
        set (e' := if (memb id M && is_arg args e)%bool then EMove e else e) in *.
        destruct (HEV _ _ _ _ _ _ e Hrel) with (2 := Hca) as (r & c1 & E1 & E2 & X1).
        { intros y Hy. destruct (Hd y Hy) as [Hy' _]. cbn [s_uses] in Hy'.
          now apply orb_false_elim in Hy'. }
        cbn [py_exec c_exec]. rewrite Hu, E1, E2.
        destruct r as [v|y| |]; cbn [andthen].
        2-4: eexists _, c1; split; [reflexivity|]; split;
               [apply ext_frame; [eapply rl_base; eauto | exact X1]|reflexivity].
        pose proof (rel_ext _ _ _ _ _ _ _ Hrel X1) as Hrel1.
        destruct Hmv as [Hmv|(a & k & -> & He' & Hk & Hid & Ha & Hra)].
        * rewrite Hmv. eexists _, (snd (push c1 v)). split; [reflexivity|]. split.
          { apply ext_frame; [eapply rl_base; eauto|]. eapply ext_trans; [exact X1|apply push_ext]. }
          eexists _, D. split; [reflexivity|]. split.
          { now apply rel_alloca. }
          intros y Hy. apply (Hd y Hy).
        * rewrite He'. cbn [moved_from]. rewrite Hk.
          destruct (rel_owned _ _ _ _ _ _ _ _ _ Hrel1 Hk) as [Hk1 Hk2]. specialize (Hk2 eq_refl).
          eexists _, (snd (push (set_slot c1 k (r_moved R v)) v)). split; [reflexivity|]. split.
          { eapply frame_trans; [apply ext_frame; [eapply rl_base; eauto | exact X1]|].
            eapply frame_trans; [apply frame_slot; exact Hk2|].
            apply ext_frame; [cbn; eapply rl_base; eauto|]. apply push_ext. }
          eexists _, (fun y => D y \/ y = a). split; [reflexivity|]. split.
          { apply rel_alloca; [|exact Hx]. now apply rel_kill. }
          intros y [Hy| ->]; [apply (Hd y Hy)|]. cbn in Hsafe. auto.
      + cbn [py_exec c_exec ao_mutate].
        eexists _, (snd (push c (r_default R))). split; [reflexivity|]. split.
        { apply ext_frame; [eapply rl_base; eauto|apply push_ext]. }
        eexists _, D. split; [reflexivity|]. split; [now apply rel_alloca|].
        intros y Hy. apply (Hd y Hy).
    - (* assignment *)
      inversion Hcs as [| | |id0 l0 r0 Hcl Hcr| | | | |]; subst.
      destruct (marked_cases M args id r ce refs D base env c Hrel Hcr) as [Hu Hmv].
      assert (Hm : ao_mutate M args (SAssign id l r) =
                   SAssign id l (if (memb id M && is_arg args r)%bool then EMove r else r)).
      { cbn [ao_mutate]. now destruct (memb id M && is_arg args r)%bool. }
      rewrite Hm. clear Hm.
      set (r' := if (memb id M && is_arg args r)%bool then EMove r else r) in *.
      assert (Hdl : forall y, D y -> e_uses y l = false).
      { intros y Hy. destruct (Hd y Hy) as [Hy' _]. cbn [s_uses] in Hy'. now apply orb_false_elim in Hy'. }
      destruct (HEV _ _ _ _ _ _ r Hrel) with (2 := Hcr) as (q & c1 & E1 & E2 & X1).
      { intros y Hy. destruct (Hd y Hy) as [Hy' _]. cbn [s_uses] in Hy'. now apply orb_false_elim in Hy'. }
      cbn [py_exec c_exec]. rewrite Hu, E1, E2.
      pose proof (rel_ext _ _ _ _ _ _ _ Hrel X1) as Hrel1.
      assert (F1 : frame base c c1) by (apply ext_frame; [eapply rl_base; eauto | exact X1]).
      destruct q as [v|y| |]; cbn [andthen].
      2-4: eexists _, c1; split; [reflexivity|]; split; [exact F1|reflexivity].
      destruct l as [x|w|e1 at_|o es|f es|e1]; cbn [andthen].
      2,4,5,6: eexists _, c1; split; [reflexivity|]; split; [exact F1|reflexivity].
      + (* to a variable *)
        assert (Hx : refs x = false) by (apply Hrb; constructor).
        destruct (env x) as [w|] eqn:Ex.
        2:{ rewrite (rl_none _ _ _ _ _ _ Hrel x Ex). cbn [andthen].
            eexists _, c1; split; [reflexivity|]; split; [exact F1|reflexivity]. }
        destruct (rl_some _ _ _ _ _ _ Hrel1 x w Ex) as (b & k & A1 & A2 & A3 & A4).
        assert (b = false) by (rewrite (rl_mode _ _ _ _ _ _ Hrel x b _ A1) in Hx; exact Hx). subst b.
        specialize (A4 eq_refl). rewrite A1. cbn [andthen].
        destruct Hmv as [Hmv|(a & k' & -> & He' & Hk & Hid & Ha & Hra)].
        * rewrite Hmv. cbn [c_write andthen].
          eexists _, (set_slot c1 k v). split; [reflexivity|]. split.
          { eapply frame_trans; [exact F1|]. now apply frame_slot. }
          eexists _, D. split; [reflexivity|]. split; [eapply rel_write; eauto|].
          intros y Hy. apply (Hd y Hy).
        * rewrite He'. cbn [moved_from]. rewrite Hk. cbn [c_write andthen].
          destruct (rel_owned _ _ _ _ _ _ _ _ _ Hrel1 Hk) as [Hk1 Hk2]. specialize (Hk2 eq_refl).
          pose proof (rel_kill _ _ _ _ _ _ a k' (r_moved R v) Hrel1 Hk) as Hrel2.
          eexists _, (set_slot (set_slot c1 k' (r_moved R v)) k v). split; [reflexivity|]. split.
          { eapply frame_trans; [exact F1|]. eapply frame_trans; apply frame_slot; eauto. }
          pose proof (rel_write _ _ _ _ _ _ x v w k Hrel2 Ex A1) as Hrel3.
          cbn [Safe Step_safe] in Hsafe.
          destruct (Hsafe Hid Ha Hra) as [Hxa|Hka].
          { injection Hxa as ->. rewrite A1 in Hk. injection Hk as ->.
            exists ce, D. split; [reflexivity|]. split; [|intros y Hy; apply (Hd y Hy)].
            destruct Hrel3 as [B1 B2 B3 B4 B5]. split; auto.
            intros y u Hy. destruct (B2 y u Hy) as (b & n' & C1 & C2 & C3 & C4).
            exists b, n'. repeat split; auto. intros Hnd.
            destruct (Nat.eq_dec y a) as [->|Hne]; [|apply C3; tauto].
            unfold fupd in Hy. rewrite Nat.eqb_refl in Hy. injection Hy as <-.
            rewrite A1 in C1. injection C1 as _ <-. cbn. apply fupd_same. }
          { eexists ce, _. split; [reflexivity|]. split; [exact Hrel3|].
            intros y [Hy| ->]; [apply (Hd y Hy)|exact Hka]. }
      + (* to an attribute *)
        assert (Hc1 : Calls_e (CQ C) e1) by (inversion Hcl; assumption).
        destruct (HEV _ _ _ _ _ _ e1 Hrel1 Hdl Hc1) as (q & c2 & G1 & G2 & X2).
        rewrite G1, G2.
        assert (F2 : frame base c c2).
        { apply ext_frame; [eapply rl_base; eauto|]. eapply ext_trans; eauto. }
        destruct q as [o|y| |]; cbn [andthen].
        2-4: eexists _, c2; split; [reflexivity|]; split; [exact F2|reflexivity].
        pose proof (rel_ext _ _ _ _ _ _ _ Hrel1 X2) as Hrel2.
        destruct Hmv as [Hmv|(a & k & -> & He' & Hk & Hid & Ha & Hra)].
        * rewrite Hmv. cbn [c_write].
          destruct (r_set R (c_st c2) o at_ v) as [s3|y| |]; cbn [andthen].
          2-4: eexists _, c2; split; [reflexivity|]; split; [exact F2|reflexivity].
          eexists _, (set_st c2 s3). split; [reflexivity|]. split; [exact F2|].
          eexists ce, D. split; [reflexivity|]. split; [now apply rel_st|].
          intros y Hy. apply (Hd y Hy).
        * rewrite He'. cbn [moved_from]. rewrite Hk. cbn [c_write].
          destruct (rel_owned _ _ _ _ _ _ _ _ _ Hrel2 Hk) as [Hk1 Hk2]. specialize (Hk2 eq_refl).
          assert (F3 : frame base c (set_slot c2 k (r_moved R v))).
          { eapply frame_trans; [exact F2|]. now apply frame_slot. }
          change (c_st (set_slot c2 k (r_moved R v))) with (c_st c2).
          destruct (r_set R (c_st c2) o at_ v) as [s3|y| |]; cbn [andthen].
          2-4: eexists _, (set_slot c2 k (r_moved R v)); split; [reflexivity|]; split; [exact F3|reflexivity].
          eexists _, (set_st (set_slot c2 k (r_moved R v)) s3). split; [reflexivity|]. split; [exact F3|].
          eexists ce, (fun y => D y \/ y = a). split; [reflexivity|]. split.
          { apply rel_st. now apply rel_kill. }
          intros y [Hy| ->]; [apply (Hd y Hy)|].
          cbn [Safe Step_safe] in Hsafe. destruct (Hsafe Hid Ha Hra) as [H|H]; [discriminate|exact H].
    - (* return *)
      inversion Hcs; subst.
      destruct (HEV _ _ _ _ _ _ e Hrel) as (q & c1 & E1 & E2 & X1); [|assumption|].
      { intros y Hy. apply (Hd y Hy). }
      cbn [py_exec c_exec ao_mutate]. rewrite E1, E2.
      assert (F1 : frame base c c1) by (apply ext_frame; [eapply rl_base; eauto | exact X1]).
      destruct q as [v|y| |]; cbn [andthen].
      2-4: eexists _, c1; split; [reflexivity|]; split; [exact F1|reflexivity].
      eexists _, c1; split; [reflexivity|]; split; [exact F1|]. eexists ce, D.
      split; [reflexivity|]. split; [eapply rel_ext; eauto|]. intros y Hy. apply (Hd y Hy).
    - (* expression *)
      inversion Hcs; subst.
      destruct (HEV _ _ _ _ _ _ e Hrel) as (q & c1 & E1 & E2 & X1); [|assumption|].
      { intros y Hy. apply (Hd y Hy). }
      cbn [py_exec c_exec ao_mutate]. rewrite E1, E2.
      assert (F1 : frame base c c1) by (apply ext_frame; [eapply rl_base; eauto | exact X1]).
      destruct q as [v|y| |]; cbn [andthen].
      2-4: eexists _, c1; split; [reflexivity|]; split; [exact F1|reflexivity].
      eexists _, c1; split; [reflexivity|]; split; [exact F1|]. eexists ce, D.
      split; [reflexivity|]. split; [eapply rel_ext; eauto|]. intros y Hy. apply (Hd y Hy).
    - (* sequence *)
      inversion Hcs as [| | | | | |a' b' Ha Hb| |]; subst. destruct Hsafe as [Hsa Hsb].
      destruct (HEX refs M args D base env ce c a (fun x => s_uses x b = true \/ K x) Hrel) as
        (q & c1 & E1 & F1 & E2); auto.
      { intros y Hy. destruct (Hd y Hy) as [H1 H2]. cbn [s_uses] in H1.
        apply orb_false_elim in H1. destruct H1 as [H1 H3]. split; [exact H1|].
        intros [H|H]; [congruence|tauto]. }
      { intros y Hy. apply Hrb. now constructor. }
      cbn [py_exec c_exec ao_mutate]. rewrite E1.
      destruct q as [[ov env']|y| |]; cbn [andthen].
      2-4: rewrite E2; eexists _, c1; split; [reflexivity|]; split; [exact F1|reflexivity].
      destruct E2 as (ce' & D' & E2 & Hrel' & HD'). rewrite E2. cbn [andthen fst snd].
      destruct ov as [v|].
      { eexists _, c1; split; [reflexivity|]; split; [exact F1|]. eexists ce', D'.
        split; [reflexivity|]. split; [exact Hrel'|]. intros y Hy Hk. apply (HD' y Hy). now right. }
      destruct (HEX refs M args D' base env' ce' c1 b K Hrel') as (q & c2 & G1 & F2 & G2); auto.
      { intros y Hy. specialize (HD' y Hy). split; [|tauto].
        destruct (s_uses y b); [exfalso; tauto|reflexivity]. }
      { intros y Hy. apply Hrb. now apply Rb_seq2. }
      rewrite G1.
      assert (F : frame base c c2) by (eapply frame_trans; eauto).
      destruct q as [[ov env2]|y| |].
      2-4: rewrite G2; eexists _, c2; split; [reflexivity|]; split; [exact F|reflexivity].
      destruct G2 as (ce2 & D2 & G2 & Hrel2 & HD2). rewrite G2.
      eexists _, c2; split; [reflexivity|]; split; [exact F|]. eexists ce2, D2. auto.
    - (* branch *)
      inversion Hcs as [| | | | | | |e' a' b' He Ha Hb|]; subst.
      destruct (HEV _ _ _ _ _ _ e Hrel) as (q & c1 & E1 & E2 & X1); [|assumption|].
      { intros y Hy. destruct (Hd y Hy) as [H1 _]. cbn [s_uses] in H1. now apply orb_false_elim in H1. }
      cbn [py_exec c_exec ao_mutate]. rewrite E1, E2.
      assert (F1 : frame base c c1) by (apply ext_frame; [eapply rl_base; eauto | exact X1]).
      destruct q as [v|y| |]; cbn [andthen].
      2-4: eexists _, c1; split; [reflexivity|]; split; [exact F1|reflexivity].
      pose proof (rel_ext _ _ _ _ _ _ _ Hrel X1) as Hrel1.
      assert (Hbr : forall t, t = a \/ t = b ->
        exists r c', py_exec R P n env t (c_st c1) = (r, c_st c') /\ frame base c c' /\
        match r with
        | Ok (ov, env') => exists ce' D', c_exec R C n ce t c1 = (Ok (ov, ce'), c') /\
                             rel refs D' base env' ce' c' /\ (forall x, D' x -> ~ K x)
        | Exn x => c_exec R C n ce t c1 = (Exn x, c')
        | OOB => c_exec R C n ce t c1 = (OOB, c')
        | OutOfFuel => c_exec R C n ce t c1 = (OutOfFuel, c')
        end).
      { intros t Ht.
        destruct (HEX refs [] args D base env ce c1 t K Hrel1) as (q & c2 & G1 & F2 & G2).
        - intros y Hy. destruct (Hd y Hy) as [H1 H2]. cbn [s_uses] in H1.
          apply orb_false_elim in H1. destruct H1 as [_ H1]. apply orb_false_elim in H1.
          destruct Ht as [-> | ->]; tauto.
        - intros y Hy. apply Hrb. destruct Ht as [-> | ->]; [now apply Rb_if1|now apply Rb_if2].
        - apply Safe_nil.
        - destruct Ht as [-> | ->]; assumption.
        - rewrite ao_mutate_nil in G2. exists q, c2. split; [exact G1|].
          split; [eapply frame_trans; eauto|exact G2]. }
      destruct (r_truth R v); [destruct (Hbr a) as (q & c2 & G1 & F2 & G2)
                              |destruct (Hbr b) as (q & c2 & G1 & F2 & G2)]; auto;
        (rewrite G1; exists q, c2; split; [reflexivity|]; split; [exact F2|exact G2]).
    - (* loop *)
      inversion Hcs as [| | | | | | | |e' b' He Hb]; subst.
      destruct (HEV _ _ _ _ _ _ e Hrel) as (q & c1 & E1 & E2 & X1); [|assumption|].
      { intros y Hy. destruct (Hd y Hy) as [H1 _]. cbn [s_uses] in H1. now apply orb_false_elim in H1. }
      cbn [py_exec c_exec ao_mutate]. rewrite E1, E2.
      assert (F1 : frame base c c1) by (apply ext_frame; [eapply rl_base; eauto | exact X1]).
      destruct q as [v|y| |]; cbn [andthen].
      2-4: eexists _, c1; split; [reflexivity|]; split; [exact F1|reflexivity].
      pose proof (rel_ext _ _ _ _ _ _ _ Hrel X1) as Hrel1.
      destruct (r_truth R v).
      2:{ eexists _, c1; split; [reflexivity|]; split; [exact F1|]. exists ce, D.
          split; [reflexivity|]. split; [exact Hrel1|]. intros y Hy. apply (Hd y Hy). }
      destruct (HEX refs [] args D base env ce c1 b (fun x => s_uses x (SWhile e b) = true \/ K x) Hrel1)
        as (q & c2 & G1 & F2 & G2).
      { intros y Hy. destruct (Hd y Hy) as [H1 H2]. split.
        - cbn [s_uses] in H1. now apply orb_false_elim in H1.
        - intros [H|H]; [congruence|tauto]. }
      { intros y Hy. apply Hrb. now constructor. }
      { apply Safe_nil. }
      { exact Hb. }
      rewrite ao_mutate_nil in G2. rewrite G1.
      assert (F : frame base c c2) by (eapply frame_trans; eauto).
      destruct q as [[ov env2]|y| |]; cbn [andthen].
      2-4: rewrite G2; eexists _, c2; split; [reflexivity|]; split; [exact F|reflexivity].
      destruct G2 as (ce2 & D2 & G2 & Hrel2 & HD2). rewrite G2. cbn [andthen fst snd].
      destruct ov as [w|].
      { eexists _, c2; split; [reflexivity|]; split; [exact F|]. eexists ce2, D2.
        split; [reflexivity|]. split; [exact Hrel2|]. intros y Hy Hk. apply (HD2 y Hy). now right. }
      destruct (HEX refs M args D2 base env2 ce2 c2 (SWhile e b) K Hrel2) as (q & c3 & I1 & F3 & I2); auto.
      { intros y Hy. specialize (HD2 y Hy). split; [|tauto].
        destruct (s_uses y (SWhile e b)); [exfalso; tauto|reflexivity]. }
      rewrite I1.
      assert (F' : frame base c c3) by (eapply frame_trans; eauto).
      cbn [ao_mutate] in I2.
      exists q, c3. split; [reflexivity|]. split; [exact F'|exact I2].
  Qed.

  Lemma EX_0 : EX 0.
  Proof.
    intros refs M args D base env ce c s K Hrel Hd Hrb Hsafe Hcs.
    exists OutOfFuel, c. split; [reflexivity|]. split; [split; auto|reflexivity].
  Qed.

  Lemma sim_all n : EV n /\ AR n /\ EX n.
  Proof.
    induction n as [|n (H1 & H2 & H3)].
    - split; [apply EV_0|]. split; [apply AR_0|apply EX_0].
    - split; [now apply EV_step|]. split; [now apply AR_step|now apply EX_step].
  Qed.

  Lemma hold_ok (ps : list (nat * ty)) ref : forall (vs : list (vl R)) c,
    length vs = length ps ->
    let h := hold (map (fun p => (fst p, snd p, ref (fst p))) ps) vs c in
    args_ok (c_mem (snd h)) 0 (c_nxt c) (c_nxt (snd h)) (map (fun p => ref (fst p)) ps) vs (fst h) /\
    ext c (snd h) /\ c_st (snd h) = c_st c.
  Proof.
    clear HPC P C.
    induction ps as [|p ps IH]; intros [|v vs] c Hl h; subst h; cbn [length] in Hl; try discriminate.
    - cbn. repeat split; auto.
    - cbn [map hold fst snd].
      destruct (IH vs (snd (push c v)) ltac:(lia)) as (H1 & H2 & H3).
      split; [|split].
      + cbn [args_ok]. pose proof (push_ext c v) as [X1 X2]. destruct H2 as [Y1 Y2].
        assert (Hc : c_nxt (snd (push c v)) = S (c_nxt c)) by reflexivity.
        repeat split.
        * unfold push at 1. cbn [fst]. lia.
        * rewrite Y2 by (cbn; lia). cbn. apply fupd_same.
        * exists (c_nxt (snd (push c v))). repeat split; [lia| |exact H1].
          right. unfold push at 1 2. cbn [fst]. lia.
      + eapply ext_trans; [apply push_ext|exact H2].
      + exact H3.
  Qed.

  Lemma run_sim fuel f vs s : c_run R C fuel f vs s = py_run R P fuel f vs s.
  Proof.
    unfold c_run, py_run.
    destruct (nth_error P f) as [g|] eqn:Eg; [|now rewrite (fun_none f Eg)].
    destruct (fun_pair f g Eg) as (h & Eh & refs & M & args & Hp & Hb & Hrb & Hsafe & Hcs).
    rewrite Eh.
    assert (Hlen : length (c_params h) = length (f_params g)) by (rewrite Hp, map_length; reflexivity).
    rewrite Hlen. destruct (length vs =? length (f_params g))%nat eqn:El; [|reflexivity].
    apply Nat.eqb_eq in El.
    set (c0 := {| c_mem := fun _ => r_default R; c_nxt := 0; c_st := s |}).
    destruct (hold_ok (f_params g) refs vs c0 El) as (H1 & H2 & H3).
    rewrite <- Hp in H1, H2, H3.
    set (hc := hold (c_params h) vs c0) in *.
    pose proof (args_rel (snd hc) 0 (f_params g) refs vs (fst hc) (Nat.le_0_l _) H1) as Hrel.
    rewrite <- Hp in Hrel.
    destruct (sim_all fuel) as (_ & _ & HEX).
    destruct (HEX refs M args _ _ _ _ _ (f_body g) (fun _ => False) Hrel
                ltac:(intros x []) Hrb Hsafe Hcs) as (r & c2 & G1 & _ & G2).
    rewrite <- Hb in G2. rewrite H3 in G1. change (c_st c0) with s in G1. rewrite G1.
    destruct r as [[ov env']|x| |]; [|now rewrite G2|now rewrite G2|now rewrite G2].
    destruct G2 as (ce' & D' & G2 & _ & _). now rewrite G2.
  Qed.
End Sim.

(** ** What the passes compute *)

Lemma memb_In x l : memb x l = true <-> In x l.
Proof.
  unfold memb. rewrite existsb_exists. split.
  - intros (y & Hy & E). apply Nat.eqb_eq in E. now subst.
  - intros H. exists x. split; [exact H|apply Nat.eqb_refl].
Qed.

Lemma In_del x y l : In x (del y l) <-> In x l /\ x <> y.
Proof.
  unfold del. rewrite filter_In. split; intros [H1 H2]; split; auto.
  - intros ->. rewrite Nat.eqb_refl in H2. discriminate.
  - apply Nat.eqb_neq in H2. now rewrite H2.
Qed.

Lemma fa_visit_spec {V} (s : stmt V) : forall x args,
  In x (fa_visit s args) <-> In x args /\ ~ Rebinds x s.
Proof.
  induction s; intros y args; cbn [fa_visit].
  - split; [intros H; split; [exact H|intros H'; inversion H'] | tauto].
  - rewrite In_del. split; intros [H1 H2]; split; auto.
    + intros H. inversion H; subst. congruence.
    + intros ->. apply H2. constructor.
  - destruct lhs as [z|v|e a|o es|f es|e];
      try (split; [intros H; split; [exact H|intros H'; inversion H'] | tauto]).
    rewrite In_del. split; intros [H1 H2]; split; auto.
    + intros H. inversion H; subst. congruence.
    + intros ->. apply H2. constructor.
  - split; [intros H; split; [exact H|intros H'; inversion H'] | tauto].
  - split; [intros H; split; [exact H|intros H'; inversion H'] | tauto].
  - rewrite IHs2, IHs1. split.
    + intros [[H1 H2] H3]. split; auto. intros H. inversion H; subst; auto.
    + intros [H1 H2]. split; [split; auto|]; intros H; apply H2; [now apply Rb_seq1|now apply Rb_seq2].
  - rewrite IHs2, IHs1. split.
    + intros [[H1 H2] H3]. split; auto. intros H. inversion H; subst; auto.
    + intros [H1 H2]. split; [split; auto|]; intros H; apply H2; [now apply Rb_if1|now apply Rb_if2].
  - rewrite IHs. split; intros [H1 H2]; split; auto; intros H; apply H2.
    + now inversion H.
    + now constructor.
Qed.

Lemma fa_filter_spec {V} (f : func V) x :
  memb x (fa_filter f) = true <-> exists t, By_ref f x t.
Proof.
  rewrite memb_In. unfold fa_filter. rewrite fa_visit_spec, in_map_iff. split.
  - intros [([y t] & E & H) Hr]. cbn in E. subst y. apply filter_In in H. destruct H as [H1 H2].
    exists t. cbn in H2. repeat split; auto; intros ->; discriminate.
  - intros (t & H1 & H2 & H3 & H4). split; [|exact H4].
    exists (x, t). split; [reflexivity|]. apply filter_In. split; [exact H1|].
    cbn. destruct t; try congruence. reflexivity.
Qed.

Lemma NoDup_fst {A B} (l : list (A * B)) x a b :
  NoDup (map fst l) -> In (x, a) l -> In (x, b) l -> a = b.
Proof.
  induction l as [|[y c] l IH]; cbn; [easy|]. intros Hn Ha Hb. inversion Hn; subst.
  destruct Ha as [Ha|Ha], Hb as [Hb|Hb].
  - congruence.
  - injection Ha as -> ->. exfalso. apply H1. apply in_map_iff. exists (x, b). auto.
  - injection Hb as -> ->. exfalso. apply H1. apply in_map_iff. exists (x, a). auto.
  - auto.
Qed.

Lemma Calls_e_mono {V} (Q Q' : nat -> list (expr V) -> Prop) :
  (forall f es, Q f es -> Q' f es) -> forall e, Calls_e Q e -> Calls_e Q' e.
Proof.
  intros HQ e. induction e using expr_ind2; intros Hc; inversion Hc; subst; constructor; auto.
  - rewrite Forall_forall in *. auto.
  - rewrite Forall_forall in *. auto.
Qed.

Lemma Calls_s_mono {V} (Q Q' : nat -> list (expr V) -> Prop) :
  (forall f es, Q f es -> Q' f es) -> forall s, Calls_s Q s -> Calls_s Q' s.
Proof.
  intros HQ s. induction s; intros Hc; inversion Hc; subst; constructor; auto;
    eapply Calls_e_mono; eauto.
Qed.

Lemma ao_run_params {V} (f : cfunc V) : c_params (ao_run f) = c_params f.
Proof. unfold ao_run. now destruct (ao_filter (c_body f)). Qed.

Lemma CQ_of {V} (P : prog V) (C : list (cfunc V)) (tr : func V -> cfunc V) :
  C = map tr P -> (forall f, c_params (tr f) = c_params (fa_run f)) ->
  Forall (fun f => NoDup (map fst (f_params f))) P ->
  forall f es, Not_by_attr P f es -> CQ C f es.
Proof.
  intros -> Htr Hnd f es Hq g Hg. rewrite nth_error_map in Hg.
  destruct (nth_error P f) as [h|] eqn:Eh; cbn in Hg; [|discriminate]. injection Hg as <-.
  rewrite Htr. rewrite Forall_forall. intros [m e] Hin Hm. cbn in Hm. subst m. cbn [snd].
  destruct e as [x|v|e a|o es'|f' es'|e]; auto.
  apply In_nth_error in Hin. destruct Hin as (i & Hi).
  assert (H12 : nth_error (map snd (c_params (fa_run h))) i = Some true /\
                nth_error es i = Some (EAttr e a)).
  { clear -Hi. revert es i Hi. induction (map snd (c_params (fa_run h))) as [|m l IH];
      intros [|e' es] [|i] Hi; cbn in *; try discriminate.
    - injection Hi as -> ->. auto.
    - eauto. }
  destruct H12 as [H1 H2]. cbn [fa_run c_params] in H1. rewrite map_map in H1.
  rewrite nth_error_map in H1. destruct (nth_error (f_params h) i) as [[x t]|] eqn:Ep; [|discriminate].
  cbn in H1. injection H1 as H1. apply fa_filter_spec in H1. destruct H1 as (t' & Hb).
  apply (Hq h i x t e a Eh Ep H2).
  assert (t' = t).
  { rewrite Forall_forall in Hnd. apply nth_error_In in Eh. specialize (Hnd h Eh).
    apply nth_error_In in Ep. destruct Hb as (Hb & _). eapply NoDup_fst; eauto. }
  now subst t'.
Qed.

Lemma Forall2_map_r {A B} (Q : A -> B -> Prop) (h : A -> B) l :
  Forall (fun a => Q a (h a)) l -> Forall2 Q l (map h l).
Proof. induction 1; cbn; constructor; auto. Qed.

Lemma Rebinds_refs {V} (f : func V) x : Rebinds x (f_body f) -> memb x (fa_filter f) = false.
Proof.
  intros H. destruct (memb x (fa_filter f)) eqn:E; [|reflexivity].
  apply fa_filter_spec in E. destruct E as (t & _ & _ & _ & Hn). contradiction.
Qed.

(** By reference only. *)
Lemma refs_sim (R : rt) (P : prog (vl R)) fuel f vs s :
  Well_formed P -> Attributes_by_value P ->
  c_run R (compile_refs P) fuel f vs s = py_run R P fuel f vs s.
Proof.
  intros Hw Ha. apply run_sim. unfold compile_refs. apply Forall2_map_r.
  rewrite Forall_forall. intros g Hg. exists (fun x => memb x (fa_filter g)), [], [].
  split; [reflexivity|]. split; [now rewrite ao_mutate_nil|].
  split; [intros x; apply Rebinds_refs|]. split; [apply Safe_nil|].
  unfold Attributes_by_value in Ha. rewrite Forall_forall in Ha.
  eapply Calls_s_mono; [|apply Ha; exact Hg].
  apply (CQ_of P _ fa_run); auto.
  unfold Well_formed in Hw. rewrite Forall_forall in *. intros h Hh. now apply Hw.
Qed.

(** ** Straight-line bodies *)

Fixpoint flat {V} (s : stmt V) : list (stmt V) :=
  match s with
  | SNop => []
  | SSeq a b => flat a ++ flat b
  | _ => [s]
  end.

Lemma straight_flat {V} (s : stmt V) : ao_filter s = true -> straight s (flat s).
Proof.
  induction s; cbn; intros H; try discriminate; try constructor.
  - apply IHs1. now apply andb_prop in H.
  - apply IHs2. now apply andb_prop in H.
Qed.

Lemma uses_flat {V} x (s : stmt V) : existsb (s_uses x) (flat s) = s_uses x s.
Proof.
  induction s; cbn [flat existsb s_uses]; try apply orb_false_r; auto.
  rewrite existsb_app, IHs1, IHs2. reflexivity.
Qed.

Lemma Step_safe_anti {V} refs M args (t : stmt V) (K K' : nat -> Prop) :
  (forall x, K' x -> K x) -> Step_safe refs M args t K -> Step_safe refs M args t K'.
Proof.
  intros HK. destruct t; cbn; auto.
  - destruct init as [[]|]; auto.
  - destruct rhs; auto. intros H A B C. destruct (H A B C) as [E|E]; auto.
Qed.

Lemma Safe_flat {V} refs M args (s : stmt V) : forall K,
  ao_filter s = true ->
  (forall b t a, flat s = b ++ t :: a ->
     Step_safe refs M args t (fun x => existsb (s_uses x) a = true \/ K x)) ->
  Safe refs M args s K.
Proof.
  induction s; intros K Hf H; cbn [ao_filter] in Hf; try discriminate; cbn [Safe].
  - exact I.
  - eapply Step_safe_anti; [|apply (H [] _ []); reflexivity]. cbn. auto.
  - eapply Step_safe_anti; [|apply (H [] _ []); reflexivity]. cbn. auto.
  - exact I.
  - apply andb_prop in Hf. destruct Hf as [Hf1 Hf2]. split.
    + apply IHs1; [exact Hf1|]. intros b t a Ha.
      eapply Step_safe_anti; [|apply (H b t (a ++ flat s2))].
      * cbv beta. intros x. rewrite existsb_app, uses_flat, orb_true_iff. tauto.
      * cbn [flat]. rewrite Ha, <- app_assoc. reflexivity.
    + apply IHs2; [exact Hf2|]. intros b t a Ha.
      apply (H (flat s1 ++ b) t a). cbn [flat]. rewrite Ha, app_assoc. reflexivity.
Qed.

Definition sid {V} (s : stmt V) : nat :=
  match s with
  | SAlloca id _ _ | SAssign id _ _ | SReturn id _ => id
  | _ => 0
  end.

Lemma Numbers_flat {V} (s : stmt V) l : ao_filter s = true -> Numbers s l -> l = map sid (flat s).
Proof.
  intros Hf Hn. revert Hf. induction Hn; cbn; intros Hf; try discriminate; auto.
  apply andb_prop in Hf. destruct Hf as [H1 H2]. rewrite map_app, IHHn1, IHHn2; auto.
Qed.

Lemma ao_last_spec {V} x (s : stmt V) id : forall last,
  ao_filter s = true -> ao_last x s last = Some id ->
  (exists b t a, flat s = b ++ t :: a /\ sid t = id /\ s_uses x t = true /\
                 existsb (s_uses x) a = false) \/
  (last = Some id /\ existsb (s_uses x) (flat s) = false).
Proof.
  induction s; intros last Hf H; cbn [ao_filter] in Hf; try discriminate; cbn [ao_last] in H.
  - right. auto.
  - destruct ((x0 =? x)%nat || match init with Some e => e_uses x e | None => false end)%bool eqn:E.
    + left. injection H as <-. exists [], (SAlloca id0 x0 init), []. repeat split; auto.
    + right. split; auto. cbn. rewrite E. reflexivity.
  - destruct (e_uses x lhs || e_uses x rhs)%bool eqn:E.
    + left. injection H as <-. exists [], (SAssign id0 lhs rhs), []. repeat split; auto.
    + right. split; auto. cbn. rewrite E. reflexivity.
  - destruct (e_uses x e) eqn:E.
    + left. injection H as <-. exists [], (SReturn id0 e), []. repeat split; auto.
    + right. split; auto. cbn. rewrite E. reflexivity.
  - apply andb_prop in Hf. destruct Hf as [H1 H2].
    destruct (IHs2 _ H2 H) as [(b & t & a & E & Ei & Eu & Ea)|[Hl Hu]].
    + left. exists (flat s1 ++ b), t, a. cbn [flat]. rewrite E, app_assoc. auto.
    + destruct (IHs1 _ H1 Hl) as [(b & t & a & E & Ei & Eu & Ea)|[Hl1 Hu1]].
      * left. exists b, t, (a ++ flat s2). cbn [flat]. rewrite E, <- app_assoc.
        repeat split; auto. rewrite existsb_app, Ea, Hu. reflexivity.
      * right. split; auto. cbn [flat]. rewrite existsb_app, Hu1, Hu. reflexivity.
Qed.

Lemma split_unique {A} (h : A -> nat) : forall b t a b' t' a',
  NoDup (map h (b ++ t :: a)) -> b ++ t :: a = b' ++ t' :: a' -> h t = h t' ->
  b = b' /\ t = t' /\ a = a'.
Proof.
  induction b as [|x b IH]; intros t a [|x' b'] t' a' Hn E Eh; cbn in *.
  - injection E as -> ->. auto.
  - injection E as -> ->. exfalso. inversion Hn; subst. apply H1.
    rewrite Eh, map_app. apply in_or_app. right. left. reflexivity.
  - injection E as E1 E2. subst t' a'. exfalso. inversion Hn; subst. apply H1.
    rewrite map_app. apply in_or_app. right. left. exact Eh.
  - injection E as -> E. inversion Hn; subst. destruct (IH t a b' t' a' H2 E Eh) as (-> & -> & ->). auto.
Qed.

Lemma flat_In {V} (s : stmt V) t : In t (flat s) -> ao_filter s = true ->
  forall x i id, t = SAlloca id x i -> Declares x s.
Proof.
  induction s; cbn [flat]; intros Hin Hf y i id' E; cbn [ao_filter] in Hf; try discriminate.
  - destruct Hin.
  - destruct Hin as [<-|[]]. injection E as -> -> ->. constructor.
  - destruct Hin as [<-|[]]. discriminate.
  - destruct Hin as [<-|[]]. discriminate.
  - apply andb_prop in Hf. destruct Hf. apply in_app_or in Hin. destruct Hin.
    + apply De_seq1. eapply IHs1; eauto.
    + apply De_seq2. eapply IHs2; eauto.
Qed.

Lemma leaf_flat {V} (s : stmt V) t : In t (flat s) -> ao_filter s = true ->
  forall x, s_uses x t = true -> In_step x t.
Proof.
  induction s; cbn [flat]; intros Hin Hf y Hy; cbn [ao_filter] in Hf; try discriminate.
  - destruct Hin.
  - destruct Hin as [<-|[]]. cbn in Hy. apply orb_prop in Hy. destruct Hy as [Hy|Hy].
    + apply Nat.eqb_eq in Hy. subst. constructor.
    + destruct init as [e|]; [|discriminate]. constructor. now apply e_uses_spec.
  - destruct Hin as [<-|[]]. cbn in Hy. apply orb_prop in Hy. destruct Hy as [Hy|Hy];
      apply e_uses_spec in Hy; [now constructor|now apply In_assign_r].
  - destruct Hin as [<-|[]]. cbn in Hy. constructor. now apply e_uses_spec.
  - apply andb_prop in Hf. destruct Hf. apply in_app_or in Hin. destruct Hin; eauto.
Qed.

Lemma fok_moves {V} (P : prog V) (f : func V) :
  In f P -> Well_formed P -> Attributes_by_value P -> Forall Copies_last P ->
  fok (compile P) f (ao_run (fa_run f)).
Proof.
  intros Hin Hw Ha Hc.
  assert (Hcs : Calls_s (CQ (compile P)) (f_body f)).
  { unfold Attributes_by_value in Ha. rewrite Forall_forall in Ha.
    eapply Calls_s_mono; [|apply Ha; exact Hin].
    apply (CQ_of P _ (fun f => ao_run (fa_run f))); [reflexivity|intros g; apply ao_run_params|].
    unfold Well_formed in Hw. rewrite Forall_forall in *. intros h Hh. now apply Hw. }
  unfold Well_formed in Hw. rewrite Forall_forall in Hw, Hc.
  specialize (Hc f Hin). destruct (Hw f Hin) as (Hnd & (l & Hnum & Hnl) & Hdecl). clear Hw.
  set (args := map (fun p => fst (fst p))
                 (filter (fun p => negb (is_prim (snd (fst p)))) (c_params (fa_run f)))).
  assert (Hargs : forall x, In x args -> exists t, In (x, t) (f_params f) /\ t <> TPrim).
  { intros x Hx. unfold args in Hx. apply in_map_iff in Hx. destruct Hx as ([[y t] m] & E & H).
    cbn in E. subst y. apply filter_In in H. destruct H as [H1 H2]. cbn in H1.
    apply in_map_iff in H1. destruct H1 as ([y t'] & E & H1). cbn in E. injection E as -> -> _.
    exists t. split; [exact H1|]. cbn in H2. intros ->. discriminate. }
  unfold ao_run. fold args. change (c_body (fa_run f)) with (f_body f).
  destruct (ao_filter (f_body f)) eqn:Ef.
  2:{ exists (fun x => memb x (fa_filter f)), [], []. split; [reflexivity|].
      split; [now rewrite ao_mutate_nil|]. split; [intros x; apply Rebinds_refs|].
      split; [apply Safe_nil|exact Hcs]. }
  exists (fun x => memb x (fa_filter f)), (ao_marks args (f_body f)), args.
  split; [reflexivity|]. split; [reflexivity|]. split; [intros x; apply Rebinds_refs|].
  split; [|exact Hcs].
  apply Safe_flat; [exact Ef|]. intros b t a E.
  assert (Hids : NoDup (map sid (b ++ t :: a))).
  { rewrite <- E, <- (Numbers_flat _ _ Ef Hnum). exact Hnl. }
  (* the statement is the last to mention some argument *)
  assert (Hlast : forall id, memb id (ao_marks args (f_body f)) = true -> sid t = id ->
            exists z, In z args /\ s_uses z t = true /\ existsb (s_uses z) a = false).
  { intros id Hm Hs. apply memb_In in Hm. unfold ao_marks in Hm. apply in_flat_map in Hm.
    destruct Hm as (z & Hz & Hm). destruct (ao_last z (f_body f) None) as [id'|] eqn:El; [|destruct Hm].
    destruct Hm as [->|[]].
    destruct (ao_last_spec z (f_body f) id None Ef El) as [(b' & t' & a' & E' & Ei & Eu & Ea)|[H _]];
      [|discriminate].
    destruct (split_unique sid b t a b' t' a' Hids) as (-> & -> & ->); [congruence|congruence|].
    exists z. auto. }
  assert (Hins : In t (flat (f_body f))) by (rewrite E; apply in_or_app; right; left; reflexivity).
  assert (Hafter : forall x, Forall (fun s' => ~ In_step x s') a -> existsb (s_uses x) a = false).
  { intros x Hx. destruct (existsb (s_uses x) a) eqn:Ex; [|reflexivity]. exfalso.
    apply existsb_exists in Ex. destruct Ex as (s' & Hs' & Hu). rewrite Forall_forall in Hx.
    apply (Hx s' Hs'). eapply leaf_flat; eauto. rewrite E. apply in_or_app. right. right. exact Hs'. }
  assert (Hkey : forall id y, memb id (ao_marks args (f_body f)) = true -> sid t = id ->
            memb y args = true -> memb y (fa_filter f) = false -> Copies y t ->
            (existsb (s_uses y) a = true \/ False) -> False).
  { intros id y Hm Hs Hy Hr Hcp Hafter'.
    destruct (Hlast id Hm Hs) as (z & Hz & Hzu & Hza).
    destruct (Nat.eq_dec z y) as [->|Hne]; [destruct Hafter'; [congruence|tauto]|].
    apply memb_In in Hy. destruct (Hargs y Hy) as (ty1 & Hy1 & Hy2).
    destruct (Hargs z Hz) as (tz & Hz1 & Hz2).
    assert (Hl : On_left z t).
    { pose proof (leaf_flat _ _ Hins Ef z Hzu) as Hst. inversion Hcp; subst.
      - inversion Hst; subst.
        + exfalso. eapply Hdecl; [exact Hz1|]. eapply flat_In; eauto.
        + match goal with H : In_expr z (EVar y) |- _ => inversion H; congruence end.
      - inversion Hst; subst.
        + now constructor.
        + match goal with H : In_expr z (EVar y) |- _ => inversion H; congruence end. }
    assert (Hfor : Forall (fun s' => ~ In_step y s') a).
    { apply (Hc (flat (f_body f)) b t a y ty1 z tz); auto.
      - now apply straight_flat.
      - intros Hb. assert (memb y (fa_filter f) = true) by (apply fa_filter_spec; eauto). congruence. }
    apply Hafter in Hfor. destruct Hafter'; [congruence|tauto]. }
  destruct t as [|id x i|id le r|id e|e|p q|e p q|e q]; cbn [Step_safe]; auto.
  - destruct i as [[y|v|e1 at_|o es|g es|e1]|]; auto. intros Hm Hy Hr Hk.
    eapply (Hkey id y); eauto. constructor.
  - destruct r as [y|v|e1 at_|o es|g es|e1]; auto. intros Hm Hy Hr. right. intros Hk.
    eapply (Hkey id y); eauto. constructor.
Qed.

Lemma moves_sim (R : rt) (P : prog (vl R)) fuel f vs s :
  Well_formed P -> Attributes_by_value P -> Forall Copies_last P ->
  c_run R (compile P) fuel f vs s = py_run R P fuel f vs s.
Proof.
  intros Hw Ha Hc. apply run_sim. unfold compile.
  apply (Forall2_map_r (fok (compile P)) (fun f => ao_run (fa_run f))).
  rewrite Forall_forall. intros g Hg. now apply fok_moves.
Qed.

(** ** Overriding *)

Lemma ty_eqb_eq a b : ty_eqb a b = true <-> a = b.
Proof.
  destruct a, b; cbn; split; intros H; try discriminate; auto.
  - apply Nat.eqb_eq in H. now subst.
  - injection H as ->. apply Nat.eqb_refl.
Qed.

Lemma sig_eqb_eq : forall a b, sig_eqb a b = true <-> a = b.
Proof.
  induction a as [|[t r] a IH]; intros [|[t' r'] b]; cbn; split; intros H; try discriminate; auto.
  - apply andb_prop in H. destruct H as [H1 H3]. apply andb_prop in H1. destruct H1 as [H1 H2].
    apply ty_eqb_eq in H1. apply Bool.eqb_prop in H2. apply IH in H3. congruence.
  - injection H as -> -> ->. rewrite Bool.eqb_reflx.
    rewrite (proj2 (ty_eqb_eq t' t') eq_refl), (proj2 (IH b) eq_refl). reflexivity.
Qed.

Lemma first_py {V} (chain : list (class V)) name :
  first_with (fun m => (m_name m =? name)%nat) chain = py_method chain name.
Proof.
  induction chain as [|c chain IH]; cbn; [reflexivity|]. unfold find_method. rewrite IH. reflexivity.
Qed.

Lemma first_with_some {V} (ok : meth V -> bool) chain k m :
  first_with ok chain = Some (k, m) -> ok m = true /\ exists c, nth_error chain k = Some c /\ In m c.
Proof.
  revert k. induction chain as [|c chain IH]; cbn; intros k H; [discriminate|].
  destruct (find_method ok c) as [m'|] eqn:E.
  - injection H as <- <-. unfold find_method in E. apply find_some in E. destruct E. split; [assumption|]. exists c. auto.
  - destruct (first_with ok chain) as [[k' m']|]; [|discriminate]. injection H as <- <-.
    destruct (IH k' eq_refl) as (H1 & c' & H2 & H3). split; [assumption|]. exists c'. auto.
Qed.

Lemma find_conj {A} (p q : A -> bool) l m :
  find p l = Some m -> q m = true -> find (fun x => (p x && q x)%bool) l = Some m.
Proof.
  induction l as [|x l IH]; cbn; [discriminate|]. destruct (p x) eqn:E; cbn.
  - intros [= ->] ->. reflexivity.
  - exact IH.
Qed.

Lemma find_conj_none {A} (p q : A -> bool) l :
  find p l = None -> find (fun x => (p x && q x)%bool) l = None.
Proof.
  induction l as [|x l IH]; cbn; [reflexivity|]. destruct (p x) eqn:E; cbn; [discriminate|exact IH].
Qed.

Lemma first_conj {V} (p q : meth V -> bool) chain k m :
  first_with p chain = Some (k, m) -> q m = true ->
  first_with (fun x => (p x && q x)%bool) chain = Some (k, m).
Proof.
  revert k. induction chain as [|c chain IH]; cbn; intros k H Hq; [discriminate|].
  unfold find_method in *. destruct (find p c) as [m'|] eqn:E.
  - injection H as <- <-. now rewrite (find_conj p q c m' E Hq).
  - rewrite (find_conj_none p q c E). destruct (first_with p chain) as [[k' m']|]; [|discriminate].
    injection H as <- <-. now rewrite (IH k' eq_refl Hq).
Qed.

Lemma virtual_iff {V} (chain : list (class V)) static name kd d k m :
  py_method (skipn static chain) name = Some (kd, d) ->
  py_method chain name = Some (k, m) ->
  virtual_call chain static name = Some (k, m) <-> signature m = signature d.
Proof.
  intros Hd Hm. unfold virtual_call. rewrite first_py, Hd. split.
  - intros H. apply first_with_some in H. destruct H as [H _]. apply andb_prop in H.
    now apply sig_eqb_eq.
  - intros H. apply (first_conj (fun m => (m_name m =? name)%nat)
                       (fun m => sig_eqb (signature m) (signature d))).
    + now rewrite first_py.
    + now apply sig_eqb_eq.
Qed.

Lemma list_ext {A} : forall l l' : list A,
  length l = length l' ->
  (forall i a b, nth_error l i = Some a -> nth_error l' i = Some b -> a = b) -> l = l'.
Proof.
  induction l as [|x l IH]; intros [|y l'] Hl H; cbn in Hl; try discriminate; auto.
  f_equal; [apply (H 0); reflexivity|]. apply IH; [lia|]. intros i a b Ha Hb.
  apply (H (S i)); assumption.
Qed.

Lemma nth_error_tl {A} (l : list A) i : nth_error (tl l) i = nth_error l (S i).
Proof. destruct l; [destruct i|]; reflexivity. Qed.

Lemma tl_map {A B} (h : A -> B) l : tl (map h l) = map h (tl l).
Proof. destruct l; reflexivity. Qed.

Lemma signature_params {V} (m : meth V) :
  signature m = map (fun p => (snd p, memb (fst p) (fa_filter (m_fn m)))) (tl (f_params (m_fn m))).
Proof. unfold signature. cbn [fa_run c_params]. rewrite tl_map, map_map. reflexivity. Qed.

Lemma By_ref_bool {V} (f : func V) x t :
  NoDup (map fst (f_params f)) -> In (x, t) (f_params f) ->
  memb x (fa_filter f) = true <-> t <> TPrim /\ t <> TTensor /\ ~ Rebinds x (f_body f).
Proof.
  intros Hn Hi. rewrite fa_filter_spec. split.
  - intros (t' & H1 & H2 & H3 & H4). rewrite (NoDup_fst _ _ _ _ Hn Hi H1). auto.
  - intros (H2 & H3 & H4). exists t. repeat split; auto.
Qed.

Lemma Rebinds_dec {V} (s : stmt V) z : Rebinds z s \/ ~ Rebinds z s.
Proof.
  induction s; try (right; intros H; inversion H; fail).
  - destruct (Nat.eq_dec x z) as [->|H]; [left; constructor|right; intros H'; inversion H'; congruence].
  - destruct lhs as [y|v|e a|o es|f es|e]; try (right; intros H; inversion H; fail).
    destruct (Nat.eq_dec y z) as [->|H]; [left; constructor|right; intros H'; inversion H'; congruence].
  - destruct IHs1, IHs2; try (left; now constructor); try (left; now apply Rb_seq2).
    right. intros H'. inversion H'; auto.
  - destruct IHs1, IHs2; try (left; now constructor); try (left; now apply Rb_if2).
    right. intros H'. inversion H'; auto.
  - destruct IHs; [left; now constructor|right; intros H'; now inversion H'].
Qed.

Lemma In_tl {A} (l : list A) a : In a (tl l) -> In a l.
Proof. destruct l; cbn; auto. Qed.

Lemma signature_alike {V} (m m' : meth V) :
  NoDup (map fst (f_params (m_fn m))) -> NoDup (map fst (f_params (m_fn m'))) ->
  map snd (tl (f_params (m_fn m))) = map snd (tl (f_params (m_fn m'))) ->
  signature m = signature m' <-> Rebind_alike m m'.
Proof.
  intros Hn Hn' Hty. rewrite !signature_params.
  assert (Hlen : length (tl (f_params (m_fn m))) = length (tl (f_params (m_fn m')))).
  { rewrite <- (map_length snd), Hty, map_length. reflexivity. }
  assert (Hsame : forall i x t y t', nth_error (tl (f_params (m_fn m))) i = Some (x, t) ->
            nth_error (tl (f_params (m_fn m'))) i = Some (y, t') -> t = t').
  { intros i x t y t' H1 H2. assert (H : nth_error (map snd (tl (f_params (m_fn m)))) i = Some t).
    { rewrite nth_error_map, H1. reflexivity. }
    rewrite Hty, nth_error_map, H2 in H. now injection H. }
  split.
  - intros E i x y t H1 H2 Ht1 Ht2.
    assert (Eb : memb x (fa_filter (m_fn m)) = memb y (fa_filter (m_fn m'))).
    { assert (H : nth_error (map (fun p => (snd p, memb (fst p) (fa_filter (m_fn m))))
                               (tl (f_params (m_fn m)))) i = Some (t, memb x (fa_filter (m_fn m)))).
      { rewrite nth_error_map, H1. reflexivity. }
      rewrite E, nth_error_map, H2 in H. cbn in H. now injection H. }
    apply nth_error_In, In_tl in H1. apply nth_error_In, In_tl in H2.
    pose proof (By_ref_bool _ _ _ Hn H1) as B1. pose proof (By_ref_bool _ _ _ Hn' H2) as B2.
    assert (Hdec : forall (s : stmt V) z, Rebinds z s \/ ~ Rebinds z s).
    { intros s z. apply Rebinds_dec. }
    rewrite Eb in B1. split; intros Hr.
    + destruct (Hdec (f_body (m_fn m')) y) as [H|H]; [exact H|]. exfalso.
      destruct (proj1 B1) as (_ & _ & Hc); [apply B2; auto|contradiction].
    + destruct (Hdec (f_body (m_fn m)) x) as [H|H]; [exact H|]. exfalso.
      destruct (proj1 B2) as (_ & _ & Hc); [apply B1; auto|contradiction].
  - intros H. apply list_ext; [rewrite !map_length; exact Hlen|].
    intros i a b Ha Hb. rewrite nth_error_map in Ha, Hb.
    destruct (nth_error (tl (f_params (m_fn m))) i) as [[x t]|] eqn:E1; [|discriminate].
    destruct (nth_error (tl (f_params (m_fn m'))) i) as [[y t']|] eqn:E2; [|discriminate].
    cbn in Ha, Hb. injection Ha as <-. injection Hb as <-.
    pose proof (Hsame i x t y t' E1 E2) as <-. f_equal.
    pose proof (H i x y t E1 E2) as HR.
    apply nth_error_In, In_tl in E1. apply nth_error_In, In_tl in E2.
    pose proof (By_ref_bool _ _ _ Hn E1) as B1. pose proof (By_ref_bool _ _ _ Hn' E2) as B2.
    apply eq_true_iff_eq. rewrite B1, B2. split; intros (A1 & A2 & A3); repeat split; auto;
      rewrite HR in * || rewrite <- HR in *; auto.
Qed.
