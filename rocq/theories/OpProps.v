(** C62, C63, C64: handing arguments over by move and by reference, and
    overriding methods. *)
From Coq Require Import List ZArith Bool PeanoNat Lia.
From Verif Require Import Base OpModel OpSpec OpProofs.
Import ListNotations.
Local Open Scope nat_scope.

(** A small runtime for the examples: values are numbers, 0 the null
    reference; one attribute in all; operation 0 adds its operands. *)
Definition demo : rt := {|
  vl := nat; st := nat;
  r_get := fun s _ _ => Ok s;
  r_set := fun _ _ _ v => Ok v;
  r_op := fun _ vs s => (Ok (fold_right Nat.add 0 vs), s);
  r_truth := fun v => negb (v =? 0);
  r_default := 0; r_none := 0;
  r_moved := fun _ => 0 |}.

(** ** C62: moving an argument at its last use *)

(** For every module, function, arguments, state and depth: the generated
    function (arguments by reference, moves at last uses) returns the value,
    raises the exception and leaves the state that Python does.  Missing: the
    modules the two conditions exclude, for which it is false (below). *)
Theorem C62_moves_preserve_partial :
  forall (R : rt) (P : prog (vl R)) (fuel f : nat) (vs : list (vl R)) (s : st R),
    Well_formed P -> Attributes_by_value P -> Forall Copies_last P ->
    c_run R (compile P) fuel f vs s = py_run R P fuel f vs s.
Proof. exact moves_sim. Qed.
Print Assumptions C62_moves_preserve_partial.

(** Without array parameters and without parameters that are rebound nothing is
    asked of the copies. *)
Theorem C62_references_never_moved :
  forall (R : rt) (P : prog (vl R)) (fuel f : nat) (vs : list (vl R)) (s : st R),
    Well_formed P -> Attributes_by_value P ->
    (forall g x t, In g P -> In (x, t) (f_params g) -> t <> TPrim ->
       t <> TTensor /\ ~ Rebinds x (f_body g)) ->
    c_run R (compile P) fuel f vs s = py_run R P fuel f vs s.
Proof.
  intros R P fuel f vs s Hw Ha H. apply moves_sim; auto.
  rewrite Forall_forall. intros g Hg steps before t after a ta b tb _ _ Hi Ht Hn.
  exfalso. apply Hn. destruct (H g a ta Hg Hi Ht). repeat split; auto.
Qed.
Print Assumptions C62_references_never_moved.

(** def set(self, a: NDArray): self.x = a; return a — the assignment is the last
    use of [self], so the pass moves [a], and the function returns what the move
    left, whatever the array and the object. *)
Definition set_attr {V} : func V :=
  {| f_params := [(0, TOther 0); (1, TTensor)];
     f_body := SSeq (SAssign 0 (EAttr (EVar 0) 0) (EVar 1)) (SReturn 1 (EVar 1)) |}.

Theorem C62_attribute_move_refuted :
  forall (R : rt) (o v : vl R) (s s' : st R) (fuel : nat),
    r_set R s o 0 v = Ok s' ->
    py_run R [set_attr] (S (S fuel)) 0 [o; v] s = (Ok v, s') /\
    c_run R (compile [set_attr]) (S (S fuel)) 0 [o; v] s = (Ok (r_moved R v), s').
Proof.
  intros R o v s s' fuel H. split.
  - destruct fuel; cbn; rewrite H; reflexivity.
  - destruct fuel; cbn; rewrite H; reflexivity.
Qed.
Print Assumptions C62_attribute_move_refuted.

(** def f(a: NDArray, b: NDArray): b = a; return a *)
Definition rebind_other {V} : func V :=
  {| f_params := [(0, TTensor); (1, TTensor)];
     f_body := SSeq (SAssign 0 (EVar 1) (EVar 0)) (SReturn 1 (EVar 0)) |}.

Theorem C62_reassign_move_refuted :
  forall (R : rt) (v w : vl R) (s : st R) (fuel : nat),
    py_run R [rebind_other] (S (S fuel)) 0 [v; w] s = (Ok v, s) /\
    c_run R (compile [rebind_other]) (S (S fuel)) 0 [v; w] s = (Ok (r_moved R v), s).
Proof. intros R v w s fuel. split; destruct fuel; reflexivity. Qed.
Print Assumptions C62_reassign_move_refuted.

(** def f(self, a: NDArray): self.x = a + a; b = a; return b
    def g(self, a: NDArray): return f(self, a) + a — [a] is moved in f. *)
Definition keep_sum : func nat :=
  {| f_params := [(0, TOther 0); (1, TTensor)];
     f_body := SSeq (SAssign 0 (EAttr (EVar 0) 0) (EOp 0 [EVar 1; EVar 1]))
                 (SSeq (SAlloca 1 2 (Some (EVar 1))) (SReturn 2 (EVar 2))) |}.
Definition call_sum : func nat :=
  {| f_params := [(0, TOther 0); (1, TTensor)];
     f_body := SReturn 0 (EOp 0 [ECall 0 [EVar 0; EVar 1]; EVar 1]) |}.

Fixpoint declb {V} (x : nat) (s : stmt V) : bool :=
  match s with
  | SAlloca _ y _ => y =? x
  | SSeq a b | SIf _ a b => declb x a || declb x b
  | SWhile _ b => declb x b
  | _ => false
  end.

Lemma declb_ok {V} x (s : stmt V) : Declares x s -> declb x s = true.
Proof.
  induction 1; cbn; auto; try (rewrite IHDeclares; auto using orb_true_r).
  apply Nat.eqb_refl.
Qed.

Lemma demo_wf : Well_formed [keep_sum; call_sum].
Proof.
  repeat (apply Forall_cons || apply Forall_nil); (split; [|split]).
  - cbn. repeat constructor; cbn; intuition lia.
  - exists ([0] ++ [1] ++ [2]). split; [repeat constructor|]. repeat constructor; cbn; intuition lia.
  - intros x t [Hx|[Hx|[]]] H; injection Hx as <- <-; apply declb_ok in H; discriminate.
  - cbn. repeat constructor; cbn; intuition lia.
  - exists [0]. split; [constructor|]. repeat constructor; cbn; intuition lia.
  - intros x t _ H. inversion H.
Qed.

Lemma demo_attr : Attributes_by_value [keep_sum; call_sum].
Proof.
  repeat (apply Forall_cons || apply Forall_nil); cbn.
  - repeat constructor.
  - repeat constructor. intros g i x t e a _ _ H.
    destruct i as [|[|[|]]]; discriminate.
Qed.

Lemma straight_is_flat {V} (s : stmt V) l : straight s l -> l = flat s.
Proof. induction 1; cbn; congruence. Qed.

Lemma demo_copies : Forall Copies_last [keep_sum; call_sum].
Proof.
  repeat (apply Forall_cons || apply Forall_nil);
    intros steps before s after a t b t' Hst Hsp Ha Ht Hr Hb Ht' Hne Hc Hl;
    apply straight_is_flat in Hst; subst steps; destruct Hl; inversion Hc; subst; cbn in Hsp; exfalso.
  - destruct before as [|? [|? [|? [|]]]]; discriminate.
  - destruct before as [|? [|]]; discriminate.
Qed.

Example C62_moves_preserve_example :
  Well_formed [keep_sum; call_sum] /\ Attributes_by_value [keep_sum; call_sum] /\
  Forall Copies_last [keep_sum; call_sum] /\
  (* the copy is a move *)
  map c_body (compile [keep_sum]) =
    [SSeq (SAssign 0 (EAttr (EVar 0) 0) (EOp 0 [EVar 1; EVar 1]))
       (SSeq (SAlloca 1 2 (Some (EMove (EVar 1)))) (SReturn 2 (EVar 2)))] /\
  c_run demo (compile [keep_sum; call_sum]) 9 1 [7; 5] 0 = (Ok 10, 10).
Proof.
  split; [exact demo_wf|]. split; [exact demo_attr|]. split; [exact demo_copies|].
  split; vm_compute; reflexivity.
Qed.

Example C62_attribute_move_example :
  fst (py_run demo [set_attr] 3 0 [7; 5] 0) = Ok 5 /\
  fst (c_run demo (compile [set_attr]) 3 0 [7; 5] 0) = Ok 0.
Proof. split; reflexivity. Qed.

(** ** C63: arguments by constant reference *)

(** A parameter is handed over as [const T&] exactly when it is neither a number
    nor an array and the function never rebinds it. *)
Theorem C63_reference_exact :
  forall (V : Type) (f : func V) (i x : nat) (t : ty) (b : bool),
    NoDup (map fst (f_params f)) ->
    nth_error (c_params (fa_run f)) i = Some (x, t, b) ->
    nth_error (f_params f) i = Some (x, t) /\
    (b = true <-> By_ref f x t).
Proof.
  intros V f i x t b Hn H. cbn [fa_run c_params] in H. rewrite nth_error_map in H.
  destruct (nth_error (f_params f) i) as [[y t']|] eqn:E; [|discriminate].
  cbn in H. injection H as -> -> <-. split; [reflexivity|].
  apply nth_error_In in E. rewrite (By_ref_bool f x t Hn E). unfold By_ref. tauto.
Qed.
Print Assumptions C63_reference_exact.

(** The functions with arguments by reference and no moves do what Python does,
    for every module that hands no attribute over as [const T&]: branches, loops,
    calls of any depth included.  Missing: attributes handed over, for which it
    is false (below). *)
Theorem C63_by_reference_partial :
  forall (R : rt) (P : prog (vl R)) (fuel f : nat) (vs : list (vl R)) (s : st R),
    Well_formed P -> Attributes_by_value P ->
    c_run R (compile_refs P) fuel f vs s = py_run R P fuel f vs s.
Proof. exact refs_sim. Qed.
Print Assumptions C63_by_reference_partial.

(** def renew(self, v: list): self.x = C; return v
    def run(self): return self.renew(self.x) — [v] is the attribute itself, so the
    assignment changes it: compiled code returns the new value, Python the old. *)
Definition renew {V} (new : V) : func V :=
  {| f_params := [(0, TOther 0); (1, TOther 1)];
     f_body := SSeq (SAssign 0 (EAttr (EVar 0) 0) (EConst new)) (SReturn 1 (EVar 1)) |}.
Definition run_renew {V} : func V :=
  {| f_params := [(0, TOther 0)];
     f_body := SReturn 0 (ECall 0 [EVar 0; EAttr (EVar 0) 0]) |}.

Theorem C63_attribute_refuted :
  forall (R : rt) (o old new : vl R) (s s' : st R) (fuel : nat),
    r_get R s o 0 = Ok old -> r_set R s o 0 new = Ok s' -> r_get R s' o 0 = Ok new ->
    py_run R [renew new; run_renew] (S (S (S (S fuel)))) 1 [o] s = (Ok old, s') /\
    c_run R (compile [renew new; run_renew]) (S (S (S (S fuel)))) 1 [o] s = (Ok new, s').
Proof.
  intros R o old new s s' fuel H1 H2 H3. split.
  - destruct fuel; cbn; rewrite H1; cbn; rewrite H2; reflexivity.
  - destruct fuel; cbn; rewrite H2; cbn; rewrite H3; reflexivity.
Qed.
Print Assumptions C63_attribute_refuted.

(** A loop and a recursive call: def sum(n, xs: list): while n: return xs + sum(0, xs); return xs *)
Definition loop_sum : func nat :=
  {| f_params := [(0, TPrim); (1, TOther 1)];
     f_body := SSeq (SWhile (EVar 0) (SReturn 0 (EOp 0 [EVar 1; ECall 0 [EConst 0; EVar 1]])))
                 (SReturn 1 (EVar 1)) |}.

Example C63_by_reference_example :
  Well_formed [loop_sum] /\ Attributes_by_value [loop_sum] /\
  map (fun p => snd p) (c_params (fa_run loop_sum)) = [false; true] /\
  c_run demo (compile_refs [loop_sum]) 9 0 [1; 21] 0 = (Ok 42, 0).
Proof.
  split; [|split; [|split]].
  - repeat (apply Forall_cons || apply Forall_nil). split; [|split].
    + cbn. repeat constructor; cbn; intuition lia.
    + exists ([0] ++ [1]). split; [repeat constructor|]. repeat constructor; cbn; intuition lia.
    + intros x t _ H. apply declb_ok in H. discriminate.
  - repeat (apply Forall_cons || apply Forall_nil); cbn. repeat constructor.
    intros g i x t e a _ _ H. destruct i as [|[|[|]]]; discriminate.
  - reflexivity.
  - vm_compute. reflexivity.
Qed.

Example C63_attribute_example :
  fst (py_run demo [renew 9; run_renew] 5 1 [7] 3) = Ok 3 /\
  fst (c_run demo (compile [renew 9; run_renew]) 5 1 [7] 3) = Ok 9.
Proof. split; reflexivity. Qed.

(** ** C64: overriding methods *)

(** Which method [obj.name(...)] runs: Python's choice exactly when the method
    found from the declared class upwards rebinds the same parameters. *)
Theorem C64_override_iff :
  forall (V : Type) (chain : list (class V)) (static name kd k : nat) (d m : meth V),
    py_method (skipn static chain) name = Some (kd, d) ->
    py_method chain name = Some (k, m) ->
    NoDup (map fst (f_params (m_fn m))) -> NoDup (map fst (f_params (m_fn d))) ->
    map snd (tl (f_params (m_fn m))) = map snd (tl (f_params (m_fn d))) ->
    (virtual_call chain static name = Some (k, m) <-> Rebind_alike m d).
Proof.
  intros V chain static name kd k d m Hd Hm Hn1 Hn2 Ht.
  rewrite (virtual_iff chain static name kd d k m Hd Hm). now apply signature_alike.
Qed.
Print Assumptions C64_override_iff.

Lemma skipn_concat {A} (l : list (list A)) : forall n x, In x (concat (skipn n l)) -> In x (concat l).
Proof.
  induction l as [|a l IH]; intros [|n] x H; cbn in *; auto. apply in_or_app. right. eauto.
Qed.

Lemma py_method_In {V} (chain : list (class V)) name k m :
  py_method chain name = Some (k, m) -> In m (concat chain) /\ m_name m = name.
Proof.
  rewrite <- first_py. intros H. apply first_with_some in H. destruct H as (H & c & Hc & Hi).
  apply Nat.eqb_eq in H. split; [|exact H]. apply in_concat. exists c. split; [|exact Hi].
  eapply nth_error_In; eauto.
Qed.

(** In hierarchies the front end accepts, methods whose overriding methods rebind
    the same parameters are called as in Python, whatever class the variable has.
    Missing: methods that do not, for which it is false (below). *)
Theorem C64_override_partial :
  forall (V : Type) (chain : list (class V)) (static name kd : nat) (d : meth V),
    consistent chain = true ->
    Forall (fun m => NoDup (map fst (f_params (m_fn m)))) (concat chain) ->
    (forall m m', In m (concat chain) -> In m' (concat chain) ->
       m_name m = name -> m_name m' = name -> Rebind_alike m m') ->
    py_method (skipn static chain) name = Some (kd, d) ->
    virtual_call chain static name = py_method chain name.
Proof.
  intros V chain static name kd d Hc Hn Hr Hd.
  destruct (py_method_In _ _ _ _ Hd) as [Hi Hnm]. apply skipn_concat in Hi.
  destruct (py_method chain name) as [[k m]|] eqn:Em.
  - destruct (py_method_In _ _ _ _ Em) as [Him Hnm'].
    rewrite Forall_forall in Hn.
    apply (C64_override_iff V chain static name kd k d m Hd Em); auto.
    unfold consistent in Hc. rewrite forallb_forall in Hc. specialize (Hc m Him).
    rewrite forallb_forall in Hc. specialize (Hc d Hi). rewrite Hnm, Hnm', Nat.eqb_refl in Hc.
    cbn [negb orb] in Hc. apply sig_eqb_eq in Hc.
    apply (f_equal (map fst)) in Hc. rewrite !map_map in Hc. exact Hc.
  - exfalso. rewrite <- first_py in Em.
    assert (Hnone : forall ch, first_with (fun m => (m_name m =? name)) ch = None ->
                      forall m : meth V, In m (concat ch) -> m_name m <> name).
    { clear. induction ch as [|c ch IH]; cbn; intros H m Hm; [easy|].
      unfold find_method in H. destruct (find (fun m => m_name m =? name) c) eqn:E; [discriminate|].
      apply in_app_or in Hm. destruct Hm as [Hm|Hm].
      - apply (find_none _ _ E) in Hm. now apply Nat.eqb_neq in Hm.
      - apply IH; [|exact Hm]. destruct (first_with _ ch) as [[? ?]|]; [discriminate|reflexivity]. }
    apply (Hnone chain Em d Hi Hnm).
Qed.
Print Assumptions C64_override_partial.

(** A derived class overrides a method and rebinds a parameter that its base does
    not rebind: called through a variable of the base class (so also from the
    base's own methods), the object runs the base's method; Python runs its own. *)
Theorem C64_override_refuted :
  forall (V : Type) (name n : nat) (body body' : stmt V),
    Rebinds 1 body -> ~ Rebinds 1 body' ->
    let derived := {| m_name := name;
                      m_fn := {| f_params := [(0, TOther 0); (1, TOther n)]; f_body := body |} |} in
    let base := {| m_name := name;
                   m_fn := {| f_params := [(0, TOther 0); (1, TOther n)]; f_body := body' |} |} in
    consistent [[derived]; [base]] = true /\
    py_method [[derived]; [base]] name = Some (0, derived) /\
    virtual_call [[derived]; [base]] 1 name = Some (1, base).
Proof.
  intros V name n body body' H1 H2 derived base.
  assert (Es : signature derived = [(TOther n, false)]).
  { rewrite signature_params.
    change (map _ _) with [(TOther n, memb 1 (fa_filter (m_fn derived)))].
    now rewrite (Rebinds_refs (m_fn derived) 1 H1). }
  assert (Eb : signature base = [(TOther n, true)]).
  { rewrite signature_params.
    change (map _ _) with [(TOther n, memb 1 (fa_filter (m_fn base)))].
    assert (E : memb 1 (fa_filter (m_fn base)) = true).
    { apply fa_filter_spec. exists (TOther n). repeat split; try discriminate; auto.
      cbn. auto. }
    now rewrite E. }
  split; [|split].
  - unfold consistent. cbn. rewrite !Nat.eqb_refl. reflexivity.
  - cbn. rewrite Nat.eqb_refl. reflexivity.
  - unfold virtual_call. cbn [skipn first_with find_method find m_name base derived].
    rewrite Nat.eqb_refl. fold derived base. rewrite Es, Eb. cbn. rewrite Nat.eqb_refl. reflexivity.
Qed.
Print Assumptions C64_override_refuted.

Definition m_plain (b : stmt nat) : meth nat :=
  {| m_name := 5; m_fn := {| f_params := [(0, TOther 0); (1, TOther 1)]; f_body := b |} |}.

Example C64_override_example :
  let base := m_plain (SReturn 0 (EVar 1)) in
  let derived := m_plain (SReturn 0 (EConst 2)) in
  consistent [[derived]; [base]] = true /\ Rebind_alike derived base /\
  virtual_call [[derived]; [base]] 1 5 = Some (0, derived).
Proof.
  split; [reflexivity|]. split; [|reflexivity].
  intros [|i] x y t H1 H2 _ _; cbn in *.
  - injection H1 as <- <-. split; intros H; inversion H.
  - destruct i; discriminate.
Qed.

Example C64_refuted_example :
  let base := m_plain (SReturn 0 (EConst 1)) in
  let derived := m_plain (SSeq (SAssign 0 (EVar 1) (EConst 0)) (SReturn 1 (EConst 2))) in
  Rebinds 1 (f_body (m_fn derived)) /\
  virtual_call [[derived]; [base]] 1 5 = Some (1, base) /\
  py_method [[derived]; [base]] 5 = Some (0, derived).
Proof. split; [cbn; constructor; constructor|]. split; reflexivity. Qed.
