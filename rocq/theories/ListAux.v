(** List update and the few facts about it that the concurrent models use. *)
From Verif Require Import Base.

(** [a[n] = x] for an index inside the array; no effect outside. *)
Fixpoint lset {A} (l : list A) (n : nat) (x : A) : list A :=
  match l, n with
  | [], _ => []
  | _ :: l', O => x :: l'
  | y :: l', S n' => y :: lset l' n' x
  end.

Lemma lset_length {A} (l : list A) n x : length (lset l n x) = length l.
Proof. revert n. induction l; intros [|n]; cbn; auto. Qed.
Lemma nth_lset_eq {A} (l : list A) n x : (n < length l)%nat -> nth_error (lset l n x) n = Some x.
Proof. revert n. induction l; intros [|n] H; cbn in *; try lia; auto. apply IHl. lia. Qed.
Lemma nth_lset_ne {A} (l : list A) n m x : n <> m -> nth_error (lset l n x) m = nth_error l m.
Proof. revert n m. induction l; intros [|n] [|m] H; cbn; auto; congruence. Qed.
Lemma nth_lset {A} (l : list A) n m x : (n < length l)%nat ->
  nth_error (lset l n x) m = if Nat.eqb n m then Some x else nth_error l m.
Proof.
  intros H. destruct (Nat.eqb_spec n m) as [->|E]; [apply nth_lset_eq; assumption|apply nth_lset_ne; assumption].
Qed.
Lemma nth_lset_inv {A} (l : list A) n m x y : nth_error (lset l n x) m = Some y ->
  (n = m /\ y = x /\ (n < length l)%nat) \/ (n <> m /\ nth_error l m = Some y).
Proof.
  destruct (Nat.eq_dec n m) as [->|E].
  - intros H. left. assert (HL : (m < length l)%nat).
    { rewrite <- (lset_length l m x). apply nth_error_Some. congruence. }
    rewrite nth_lset_eq in H by assumption. split; [reflexivity|]. split; [congruence|assumption].
  - rewrite nth_lset_ne by assumption. auto.
Qed.
Lemma lset_same {A} (l : list A) n x : nth_error l n = Some x -> lset l n x = l.
Proof. revert n. induction l; intros [|n] H; cbn in *; try congruence. f_equal. auto. Qed.
Lemma lset_split {A} (a : list A) x b y : lset (a ++ x :: b) (length a) y = a ++ y :: b.
Proof. induction a; cbn; congruence. Qed.
Lemma nth_split' {A} (l : list A) n x : nth_error l n = Some x ->
  exists a b, l = a ++ x :: b /\ length a = n.
Proof. apply nth_error_split. Qed.
