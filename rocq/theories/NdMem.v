(** The loops over memory: what they leave in it. *)
From Verif Require Import Base ListAux NdSpec NdModel NdAux.
From Coq Require Import Permutation.
Local Open Scope Z_scope.

(** ** Sizes and strides without wrapping *)
Lemma wrapu_id z : 0 <= z < two63 -> wrapu64 z = z.
Proof. intros H. unfold wrapu64. apply Z.mod_small. unfold two63, two64 in *. lia. Qed.
Lemma wraps_id z : - two63 <= z < two63 -> wraps64 z = z.
Proof. intros H. unfold wraps64. rewrite Z.mod_small; unfold two63, two64 in *; lia. Qed.
Lemma max_size_pos sh : 1 <= size (map (Z.max 1) sh).
Proof. induction sh as [|n sh IH]; cbn [map]; [change (size []) with 1; lia|]. rewrite size_cons. assert (1 <= Z.max 1 n) by lia. nia. Qed.
Lemma fold_size (w : Z -> Z) : (forall z, 0 <= z < two63 -> w z = z) -> forall sh acc, nonneg sh -> 0 <= acc ->
  acc * size (map (Z.max 1) sh) < two63 -> fold_left (fun s n => w (s * n)) sh acc = acc * size sh.
Proof.
  intros W. induction sh as [|n sh IH]; intros acc N A B; cbn [fold_left map] in *.
  - change (size []) with 1. lia.
  - inversion N as [|? ? N1 N2]; subst. rewrite !size_cons in *. pose proof (max_size_pos sh) as M.
    assert (n <= Z.max 1 n /\ 1 <= Z.max 1 n) as [M1 M2] by lia.
    assert (B' : acc * n * size (map (Z.max 1) sh) < two63) by nia.
    rewrite W by nia. rewrite IH; [lia|easy|nia|easy].
Qed.
Lemma data_size_eq sh : sizable sh = true -> data_size sh = size sh.
Proof. intros S. apply sizable_alt in S as [N S]. unfold data_size. rewrite fold_size; try lia; try easy. apply wrapu_id. Qed.
Lemma item_num_eq sh : sizable sh = true -> item_num sh = size sh.
Proof. intros S. apply sizable_alt in S as [N S]. unfold item_num. rewrite fold_size; try lia; try easy. intros. apply wraps_id. lia. Qed.
Lemma gen_strides_eq sh : sizable sh = true -> gen_strides sh = row_major sh.
Proof.
  induction sh as [|n sh IH]; intros S; [easy|]. pose proof (sizable_tl _ _ S) as S'. specialize (IH S').
  destruct sh as [|k sh]; [easy|]. cbn [gen_strides]. cbn [gen_strides] in IH. rewrite IH. cbn [row_major].
  f_equal. rewrite size_cons. pose proof (sizable_size _ S') as B. rewrite size_cons in B. rewrite wraps_id; [lia|].
  unfold two63 in *. lia.
Qed.
Lemma is_contig_eq_gen sh : forall st e X Y, length st = length sh -> nonneg sh -> 0 <= e ->
  e * size (map (Z.max 1) sh) < two63 ->
  is_contig_from e (rev sh ++ X) (rev st ++ Y) =
  if list_eqb st (map (Z.mul e) (row_major sh)) then is_contig_from (e * size sh) X Y else false.
Proof.
  induction sh as [|n sh IH]; intros [|s st] e X Y L N E B; try easy.
  - cbn [rev app row_major map list_eqb]. change (size []) with 1. now rewrite Z.mul_1_r.
  - inversion N as [|? ? N1 N2]; subst. cbn [rev map row_major list_eqb] in *. rewrite size_cons in B.
    pose proof (max_size_pos sh). assert (M : n <= Z.max 1 n /\ 1 <= Z.max 1 n) by lia.
    rewrite <- !app_assoc. rewrite IH; [|cbn in L; lia|easy|easy|nia].
    cbn [app is_contig_from]. pose proof (size_max_ge sh N2). pose proof (size_nonneg sh N2). 
    assert (Q1 : 0 <= size sh * n <= Z.max 1 n * size (map (Z.max 1) sh)) by nia.
    assert (Q2 : 0 <= e * (size sh * n) < two63) by nia.
    rewrite wraps_id by (rewrite <- Z.mul_assoc; unfold two63 in *; lia).
    rewrite size_cons. replace (e * size sh * n) with (e * (n * size sh)) by lia.
    destruct (list_eqb st (map (Z.mul e) (row_major sh))), (s =? e * size sh); easy.
Qed.
Lemma is_contig_eq sh st : length st = length sh -> sizable sh = true -> is_contig sh st = list_eqb st (row_major sh).
Proof.
  intros L S. apply sizable_alt in S as [N S]. unfold is_contig.
  rewrite <- (app_nil_r (rev sh)), <- (app_nil_r (rev st)). rewrite is_contig_eq_gen by (try easy; lia).
  rewrite map_ext with (g := fun x => x) by lia. rewrite map_id. cbn. now destruct (list_eqb _ _).
Qed.

(** ** Conversions *)
Ltac concrete := repeat match goal with |- context [2 ^ ?k] => let v := eval compute in (2 ^ k) in change (2 ^ k) with v end.
Lemma conv_convert from to x : conv from to x = convert from to x.
Proof.
  unfold conv, convert. destruct (dtype_eqb from to); [easy|].
  unfold cast, fits. destruct to; cbn [signed bits]; concrete; cbn [Z.sub]; 
  repeat match goal with |- context [2 ^ ?k] => let v := eval compute in (2 ^ k) in change (2 ^ k) with v end;
  cbv zeta;
  repeat match goal with |- context [?a <=? ?b] => destruct (Z.leb_spec a b) | |- context [?a <? ?b] => destruct (Z.ltb_spec a b) end; cbn;
  Z.to_euclidean_division_equations; lia.
Qed.
Lemma cast_fits d x : fits d x = true -> cast d x = x.
Proof.
  unfold cast, fits. destruct d; cbn [signed bits];
  repeat match goal with |- context [2 ^ ?k] => let v := eval compute in (2 ^ k) in change (2 ^ k) with v end;
  cbv zeta; rewrite andb_true_iff; rewrite Z.leb_le, Z.ltb_lt; intros H;
  repeat match goal with |- context [?a <=? ?b] => destruct (Z.leb_spec a b) | |- context [?a <? ?b] => destruct (Z.ltb_spec a b) end; cbn;
  Z.to_euclidean_division_equations; lia.
Qed.
Lemma map_op_compute d o x y : map_op d o x y = match compute d o x y with Some z => Ok z | None => UB end.
Proof.
  unfold map_op, compute.
  set (r := match o with Plus => x + y | Minus => x - y | Times => x * y end).
  change (match d with I64 => I64 | _ => I32 end) with (int_of d).
  destruct (fits (int_of d) r) eqn:F; [|easy]. f_equal. rewrite conv_convert. unfold convert.
  destruct d; cbn [int_of dtype_eqb] in *; try easy; now rewrite cast_fits.
Qed.

(** ** Pointers *)
Lemma padd_padd p a b : padd (padd p a) b = padd p (a + b).
Proof. destruct p as [[q o]|]; cbn; [|easy]. f_equal. f_equal. lia. Qed.
Lemma padd_0 p : padd p 0 = p.
Proof. destruct p as [[q o]|]; cbn; [|easy]. f_equal. f_equal. lia. Qed.

(** ** Loops *)
Lemma for_each_app {A S} (l l' : list A) (f : A -> S -> res S) s :
  for_each (l ++ l') f s = let! s := for_each l f s in for_each l' f s.
Proof. revert s; induction l as [|x l IH]; intros s; cbn; [easy|]. destruct (f x s); cbn; auto. Qed.
Lemma for_each_flat_map {A B S} (g : A -> list B) (l : list A) (f : B -> S -> res S) s :
  for_each (flat_map g l) f s = for_each l (fun x => for_each (g x) f) s.
Proof.
  revert s; induction l as [|x l IH]; intros s; cbn [flat_map for_each]; [easy|].
  rewrite for_each_app. destruct (for_each (g x) f s); cbn; auto.
Qed.
Lemma for_each_map {A B S} (g : A -> B) (l : list A) (f : B -> S -> res S) s :
  for_each (map g l) f s = for_each l (fun x => f (g x)) s.
Proof. revert s; induction l as [|x l IH]; intros s; cbn; [easy|]. destruct (f (g x) s); cbn; auto. Qed.
Lemma for_each_ext {A S} (l : list A) (f g : A -> S -> res S) s : (forall x s, In x l -> f x s = g x s) -> for_each l f s = for_each l g s.
Proof.
  revert s; induction l as [|x l IH]; intros s H; cbn; [easy|]. rewrite H by now left. destruct (g x s); cbn; auto.
  apply IH. intros y t I. apply H. now right.
Qed.

Lemma assign_loop from to : forall sh dst src pd ps m, length dst = length sh -> length src = length sh -> sh <> [] ->
  assign from to pd ps dst src sh m =
  for_each (indices sh) (fun idx m => let! x := load m (padd ps (dot idx src)) in store m (padd pd (dot idx dst)) (conv from to x)) m.
Proof.
  induction sh as [|n sh IH]; intros dst src pd ps m L1 L2 E; [easy|].
  destruct dst as [|d dst]; [easy|]. destruct src as [|s src]; [easy|]. cbn [assign indices].
  rewrite for_each_flat_map. destruct sh as [|k sh].
  - apply for_each_ext. intros i m' _. cbn [indices map for_each]. 
    destruct src; [|easy]. destruct dst; [|easy]. cbn [dot]. rewrite !Z.add_0_r.
    destruct (load m' (padd ps (i * s))); cbn; [|easy..]. now destruct (store _ _ _).
  - apply for_each_ext. intros i m' _. rewrite for_each_map. rewrite IH by (cbn in *; try lia; easy).
    apply for_each_ext. intros idx m'' _. cbn [dot]. now rewrite !padd_padd.
Qed.
Lemma scalar_assign_loop f : forall sh dst lst pd pl m, length dst = length sh -> length lst = length sh -> sh <> [] ->
  scalar_assign f pd pl dst lst sh m =
  for_each (indices sh) (fun idx m => let! x := load m (padd pl (dot idx lst)) in let! r := f x in store m (padd pd (dot idx dst)) r) m.
Proof.
  induction sh as [|n sh IH]; intros dst src pd ps m L1 L2 E; [easy|].
  destruct dst as [|d dst]; [easy|]. destruct src as [|s src]; [easy|]. cbn [scalar_assign indices].
  rewrite for_each_flat_map. destruct sh as [|k sh].
  - apply for_each_ext. intros i m' _. cbn [indices map for_each]. 
    destruct src; [|easy]. destruct dst; [|easy]. cbn [dot]. rewrite !Z.add_0_r.
    destruct (load m' (padd ps (i * s))); cbn; [|easy..]. destruct (f _); cbn; [|easy..]. now destruct (store _ _ _).
  - apply for_each_ext. intros i m' _. rewrite for_each_map. rewrite IH by (cbn in *; try lia; easy).
    apply for_each_ext. intros idx m'' _. cbn [dot]. now rewrite !padd_padd.
Qed.
Lemma binary_assign_loop f : forall sh dst lst rst pd pl pr m, length dst = length sh -> length lst = length sh -> length rst = length sh -> sh <> [] ->
  binary_assign f pd pl pr dst lst rst sh m =
  for_each (indices sh) (fun idx m => let! x := load m (padd pl (dot idx lst)) in let! y := load m (padd pr (dot idx rst)) in
     let! r := f x y in store m (padd pd (dot idx dst)) r) m.
Proof.
  induction sh as [|n sh IH]; intros dst src rst pd ps pr m L1 L2 L3 E; [easy|].
  destruct dst as [|d dst]; [easy|]. destruct src as [|s src]; [easy|]. destruct rst as [|t rst]; [easy|]. cbn [binary_assign indices].
  rewrite for_each_flat_map. destruct sh as [|k sh].
  - apply for_each_ext. intros i m' _. cbn [indices map for_each]. 
    destruct src; [|easy]. destruct dst; [|easy]. destruct rst; [|easy]. cbn [dot]. rewrite !Z.add_0_r.
    destruct (load m' (padd ps (i * s))); cbn; [|easy..]. destruct (load m' (padd pr (i * t))); cbn; [|easy..].
    destruct (f _ _); cbn; [|easy..]. now destruct (store _ _ _).
  - apply for_each_ext. intros i m' _. rewrite for_each_map. rewrite IH by (cbn in *; try lia; easy).
    apply for_each_ext. intros idx m'' _. cbn [dot]. now rewrite !padd_padd.
Qed.
(** A loop over the positions of an array is a loop over its indices. *)
Lemma flat_loop {S} sh (f : Z -> S -> res S) s : nonneg sh ->
  for_each (zrange (size sh)) f s = for_each (indices sh) (fun idx => f (dot idx (row_major sh))) s.
Proof.
  intros N. rewrite <- map_position, for_each_map by easy. apply for_each_ext. intros idx t I.
  now rewrite dot_row_major by now apply indices_len_in.
Qed.

(** ** Filling a new block *)
Definition wputs (w : list (option Z)) (ps : list (Z * Z)) : list (option Z) :=
  fold_left (fun w p => lset w (Z.to_nat (fst p)) (Some (snd p))) ps w.
Lemma wputs_length ps : forall w, length (wputs w ps) = length w.
Proof. induction ps as [|p ps IH]; intros w; cbn; [easy|]. unfold wputs in IH. rewrite IH. apply lset_length. Qed.
Lemma wputs_app w ps qs : wputs w (ps ++ qs) = wputs (wputs w ps) qs.
Proof. unfold wputs. apply fold_left_app. Qed.
Lemma store_new bl w q x : 0 <= q < Z.of_nat (length w) ->
  store (bl ++ [Some w]) (Some (length bl, q)) x = Ok (bl ++ [Some (lset w (Z.to_nat q) (Some x))]).
Proof.
  intros H. cbn. rewrite nth_error_app2, Nat.sub_diag by lia. cbn.
  destruct (Z.leb_spec 0 q); [|lia]. destruct (Z.ltb_spec q (Z.of_nat (length w))); [|lia]. cbn. f_equal. apply lset_split.
Qed.
Lemma fill_each {A} (f : A -> list (option (list (option Z))) -> res Z) (g : A -> Z) (q : A -> Z) bl : forall L w,
  (forall x w', In x L -> length w' = length w -> f x (bl ++ [Some w']) = Ok (g x)) ->
  (forall x, In x L -> 0 <= q x < Z.of_nat (length w)) ->
  for_each L (fun x m => let! v := f x m in store m (Some (length bl, q x)) v) (bl ++ [Some w])
  = Ok (bl ++ [Some (wputs w (map (fun x => (q x, g x)) L))]).
Proof.
  induction L as [|x L IH]; intros w Hf Hq; [easy|]. cbn [for_each map].
  rewrite Hf by (try easy; now left). cbn [bind]. rewrite store_new by (apply Hq; now left). cbn [bind].
  rewrite IH; [easy| |].
  - intros y w' I L'. apply Hf; [now right|]. now rewrite L', lset_length.
  - intros y I. rewrite lset_length. apply Hq. now right.
Qed.
Lemma wputs_other ps : forall w k, 0 <= k -> Forall (fun p => 0 <= fst p) ps -> ~ In k (map fst ps) ->
  nth_error (wputs w ps) (Z.to_nat k) = nth_error w (Z.to_nat k).
Proof.
  induction ps as [|p ps IH]; intros w k Hk F H; [easy|]. inversion F; subst. cbn [wputs fold_left].
  change (nth_error (wputs (lset w (Z.to_nat (fst p)) (Some (snd p))) ps) (Z.to_nat k) = nth_error w (Z.to_nat k)).
  rewrite IH; [|easy|easy|intros I; apply H; now right].
  apply nth_lset_ne. intros E. apply H. left. lia.
Qed.
Lemma wputs_in ps : forall w k x, NoDup (map fst ps) -> Forall (fun p => 0 <= fst p < Z.of_nat (length w)) ps ->
  In (k, x) ps -> nth_error (wputs w ps) (Z.to_nat k) = Some (Some x).
Proof.
  induction ps as [|p ps IH]; intros w k x N F I; [easy|]. inversion F as [|? ? F1 F2]; subst. cbn [map] in N. inversion N; subst. cbn [wputs fold_left].
  change (nth_error (wputs (lset w (Z.to_nat (fst p)) (Some (snd p))) ps) (Z.to_nat k) = Some (Some x)).
  destruct I as [->|I].
  - cbn [fst snd] in *. rewrite wputs_other; [|lia| |easy].
    + apply nth_lset_eq. lia.
    + eapply Forall_impl; [|exact F2]. cbn. lia.
  - apply IH; [easy| |easy]. rewrite lset_length. easy.
Qed.
Lemma nth_error_ext' {A} (l l' : list A) : length l = length l' -> (forall k, (k < length l)%nat -> nth_error l k = nth_error l' k) -> l = l'.
Proof.
  revert l'; induction l as [|x l IH]; intros [|y l'] L H; try easy. f_equal.
  - specialize (H 0%nat). cbn in H. assert (Some x = Some y) by (apply H; lia). congruence.
  - apply IH; [cbn in L; lia|]. intros k K. apply (H (S k)). cbn. lia.
Qed.
Lemma nth_error_combine {A B} (l : list A) (l' : list B) k x y : nth_error l k = Some x -> nth_error l' k = Some y ->
  nth_error (combine l l') k = Some (x, y).
Proof.
  revert l' k; induction l as [|a l IH]; intros [|b l'] [|k]; cbn; try easy; [congruence|auto].
Qed.
Lemma map_fst_combine {A B} (l : list A) (l' : list B) : length l = length l' -> map fst (combine l l') = l.
Proof. revert l'; induction l as [|a l IH]; intros [|b l'] L; try easy. cbn. f_equal. apply IH. cbn in L; lia. Qed.
Lemma map_snd_combine {A B} (l : list A) (l' : list B) : length l = length l' -> map snd (combine l l') = l'.
Proof. revert l'; induction l as [|a l IH]; intros [|b l'] L; try easy. cbn. f_equal. apply IH. cbn in L; lia. Qed.
Lemma combine_map' {A B} (l : list (A * B)) : combine (map fst l) (map snd l) = l.
Proof. induction l as [|[a b] l IH]; cbn; congruence. Qed.
Lemma wputs_full n xs ps : length xs = Z.to_nat n -> Permutation ps (combine (zrange n) xs) ->
  wputs (repeat None (Z.to_nat n)) ps = map Some xs.
Proof.
  intros L P.
  assert (K : map fst (combine (zrange n) xs) = zrange n) by (apply map_fst_combine; rewrite zrange_length; lia).
  apply nth_error_ext'.
  - rewrite wputs_length, repeat_length, map_length. lia.
  - intros k Hk. rewrite wputs_length, repeat_length in Hk.
    destruct (nth_error xs k) as [x|] eqn:X; [|apply nth_error_None in X; lia].
    rewrite nth_error_map, X. cbn. rewrite <- (Nat2Z.id k). apply wputs_in.
    + eapply Permutation_NoDup; [apply Permutation_map; symmetry; exact P|]. rewrite K. apply zrange_nodup.
    + rewrite repeat_length. apply Forall_forall. intros p I. eapply Permutation_in in I; [|exact P].
      apply (in_map fst) in I. rewrite K in I. apply in_zrange in I. lia.
    + eapply Permutation_in; [symmetry; exact P|]. eapply nth_error_In with (n := k). apply nth_error_combine; [|easy].
      pose proof (zrange_nth n (Z.of_nat k)) as Z. rewrite Nat2Z.id in Z. apply Z. lia.
Qed.

(** ** Memory and its values *)
Definition memrel (m : list (list Z)) (bl : list (option (list (option Z)))) :=
  Forall2 (fun l o => o = None \/ o = Some (map Some l)) m bl.
Definition alive (bl : list (option (list (option Z)))) (b : nat) := exists l, nth_error bl b = Some (Some l).
Definition inb (m : list (list Z)) (c : nat * Z) := 0 <= snd c < Z.of_nat (length (nth (fst c) m [])).
Lemma memrel_length m bl : memrel m bl -> length m = length bl.
Proof. induction 1; cbn; congruence. Qed.
Lemma memrel_nth m bl b l : memrel m bl -> nth_error bl b = Some (Some l) -> l = map Some (nth b m []) /\ (b < length m)%nat.
Proof.
  intros M. revert b; induction M as [|x o m bl H M IH]; intros [|b]; cbn; try easy.
  - intros E. injection E as ->. destruct H as [|H]; [easy|]. injection H as ->. split; [easy|lia].
  - intros E. destruct (IH _ E). split; [easy|lia].
Qed.
Lemma load_rel m bl b o : memrel m bl -> alive bl b -> inb m (b, o) -> load bl (Some (b, o)) = Ok (value m (b, o)).
Proof.
  intros M [l E] I. destruct (memrel_nth _ _ _ _ M E) as [-> _]. unfold load. rewrite E. unfold rdz, rd, inb, value in *.
  cbn [fst snd] in *. destruct (Z.ltb_spec o 0); [lia|]. rewrite nth_error_map.
  destruct (nth_error (nth b m []) (Z.to_nat o)) eqn:N; [|apply nth_error_None in N; lia]. cbn.
  now rewrite (nth_error_nth _ _ _ N).
Qed.
Lemma memrel_app m bl l : memrel m bl -> memrel (m ++ [l]) (bl ++ [Some (map Some l)]).
Proof. intros M. apply Forall2_app; [easy|]. constructor; auto. Qed.
Lemma put_length m c x : length (put m c x) = length m.
Proof. unfold put. apply lset_length. Qed.
Lemma nth_lset_nth {A} (l : list A) k j x d : nth j (lset l k x) d = if (j =? k)%nat && (k <? length l)%nat then x else nth j l d.
Proof.
  destruct (Nat.eqb_spec j k) as [->|N]; cbn [andb].
  - destruct (Nat.ltb_spec k (length l)).
    + apply nth_error_nth. now apply nth_lset_eq.
    + rewrite !nth_overflow; [easy|lia|rewrite lset_length; lia].
  - pose proof (nth_lset_ne l k j x (not_eq_sym N)) as E. destruct (nth_error l j) eqn:F.
    + rewrite (nth_error_nth _ _ _ F). now apply nth_error_nth.
    + apply nth_error_None in F. rewrite !nth_overflow; [easy|lia|rewrite lset_length; lia].
Qed.
Lemma put_nth_length m c x b : length (nth b (put m c x) []) = length (nth b m []).
Proof.
  unfold put. rewrite nth_lset_nth. destruct (Nat.eqb_spec b (fst c)); cbn [andb]; [|easy]. subst.
  destruct (Nat.ltb_spec (fst c) (length m)); [|easy]. apply lset_length.
Qed.
Lemma puts_nth_length cs : forall m xs b, length (nth b (puts m cs xs) []) = length (nth b m []).
Proof. induction cs as [|c cs IH]; intros m [|x xs] b; cbn; try easy. now rewrite IH, put_nth_length. Qed.
Lemma puts_length cs : forall m xs, length (puts m cs xs) = length m.
Proof. induction cs as [|c cs IH]; intros m [|x xs]; cbn; try easy. now rewrite IH, put_length. Qed.
Lemma inb_block m c : inb m c -> (fst c < length m)%nat.
Proof. unfold inb. intros H. destruct (Nat.ltb_spec (fst c) (length m)); [easy|]. rewrite nth_overflow in H by lia. cbn in H. lia. Qed.
Lemma value_put_ne m c d x : inb m c -> 0 <= snd d -> c <> d -> value (put m c x) d = value m d.
Proof.
  intros I H N. unfold value, put. rewrite nth_lset_nth. destruct (Nat.eqb_spec (fst d) (fst c)) as [E|]; cbn [andb]; [|easy].
  destruct (Nat.ltb_spec (fst c) (length m)); [|easy]. rewrite nth_lset_nth.
  destruct (Nat.eqb_spec (Z.to_nat (snd d)) (Z.to_nat (snd c))); cbn [andb]; [|now rewrite E].
  exfalso. apply N. unfold inb in I. destruct c, d; cbn in *. f_equal; [easy|lia].
Qed.
Lemma value_puts_other cs : forall m xs d, Forall (inb m) cs -> 0 <= snd d -> ~ In d cs -> value (puts m cs xs) d = value m d.
Proof.
  induction cs as [|c cs IH]; intros m [|x xs] d F H N; cbn [puts]; try easy. inversion F; subst.
  rewrite IH; [|eapply Forall_impl; [|eassumption]; unfold inb; intros a; now rewrite put_nth_length|easy|intros I; apply N; now right].
  apply value_put_ne; [easy|easy|]. intros ->. apply N. now left.
Qed.
Definition same_life (bl bl' : list (option (list (option Z)))) := length bl = length bl' /\ forall b, alive bl b <-> alive bl' b.
Lemma same_life_refl bl : same_life bl bl. Proof. easy. Qed.
Lemma same_life_trans a b c : same_life a b -> same_life b c -> same_life a c.
Proof. intros [L1 H1] [L2 H2]. split; [congruence|]. intros x. now rewrite H1, H2. Qed.
Lemma lset_map {A B} (f : A -> B) l k x : lset (map f l) k (f x) = map f (lset l k x).
Proof. revert k; induction l as [|a l IH]; intros [|k]; cbn; try easy. f_equal. apply IH. Qed.
Lemma Forall2_lset {A B} (R : A -> B -> Prop) l l' k x y : Forall2 R l l' -> R x y -> Forall2 R (lset l k x) (lset l' k y).
Proof. intros F H. revert k; induction F; intros [|k]; cbn; constructor; auto. Qed.
Lemma store_rel m bl b o x : memrel m bl -> alive bl b -> inb m (b, o) ->
  exists bl', store bl (Some (b, o)) x = Ok bl' /\ memrel (put m (b, o) x) bl' /\ same_life bl bl'.
Proof.
  intros M [l E] I. destruct (memrel_nth _ _ _ _ M E) as [-> B]. unfold store. rewrite E. unfold inb in I. cbn [fst snd] in I.
  rewrite map_length. destruct (Z.leb_spec 0 o); [|lia]. destruct (Z.ltb_spec o (Z.of_nat (length (nth b m [])))); [|lia]. cbn [andb].
  eexists. split; [reflexivity|]. split; [|split].
  - unfold put. cbn [fst snd]. apply Forall2_lset; [easy|]. right. f_equal. apply lset_map.
  - now rewrite lset_length.
  - intros b'. unfold alive. destruct (Nat.eq_dec b b') as [<-|N].
    + rewrite nth_lset_eq by (rewrite <- (memrel_length _ _ M); easy). split; eauto.
    + now rewrite nth_lset_ne.
Qed.

(** A loop that writes cells of existing blocks. *)
Lemma set_each {A} (f : A -> list (option (list (option Z))) -> res Z) (g : A -> Z) (dst : A -> nat * Z) : forall L m bl (m0 : list (list Z)),
  memrel m bl -> (forall x, In x L -> inb m (dst x) /\ alive bl (fst (dst x))) ->
  (forall b, length (nth b m []) = length (nth b m0 [])) ->
  (forall x m' bl', In x L -> memrel m' bl' -> same_life bl bl' -> (forall b, length (nth b m' []) = length (nth b m0 [])) ->
     (forall d, 0 <= snd d -> ~ In d (map dst L) -> value m' d = value m d) -> f x bl' = Ok (g x)) ->
  exists bl', for_each L (fun x m => let! v := f x m in store m (Some (dst x)) v) bl = Ok bl' /\
    memrel (puts m (map dst L) (map g L)) bl' /\ same_life bl bl'.
Proof.
  induction L as [|x L IH]; intros m bl m0 M Hd Hl Hf.
  - exists bl. split; [easy|]. split; [easy|apply same_life_refl].
  - cbn [for_each map puts]. rewrite (Hf x m bl) by (first [now left|apply same_life_refl|easy]). cbn [bind].
    destruct (Hd x (or_introl eq_refl)) as [I AL].
    destruct (dst x) as [b o] eqn:D. destruct (store_rel m bl b o (g x) M AL I) as (bl1 & E & M1 & S1).
    rewrite E. cbn [bind].
    destruct (IH (put m (b, o) (g x)) bl1 m0 M1) as (bl2 & E2 & M2 & S2).
    + intros y Iy. destruct (Hd y (or_intror Iy)) as [I' A']. split.
      * unfold inb in *. now rewrite put_nth_length.
      * now apply S1.
    + intros b'. now rewrite put_nth_length.
    + intros y m' bl' Iy M' S' L' V'. apply (Hf y m'); [now right|easy|eapply same_life_trans; eauto|easy|].
      intros d Hd0 N. rewrite V'; [|easy|intros K; apply N; now right].
      apply value_put_ne; [easy|easy|]. intros <-. apply N. left. easy.
    + exists bl2. split; [easy|]. split; [easy|]. eapply same_life_trans; eauto.
Qed.
