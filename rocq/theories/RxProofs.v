(** * Proofs for C74 *)
From Coq Require Import ZArith List Bool Lia.
From Verif Require Import Base RxSpec RxModel.
Import ListNotations.
Local Open Scope Z_scope.

(** ** Copies *)
Lemma copy_part s a b : (a <= b <= length s)%nat ->
  copy s (Z.of_nat a) (Z.of_nat b - Z.of_nat a) = Ok (part s a b).
Proof.
  intros H. unfold copy, part. destruct (Z.eqb_spec (Z.of_nat b - Z.of_nat a) 0) as [E|E].
  - replace (b - a)%nat with 0%nat by lia. reflexivity.
  - replace ((0 <=? Z.of_nat a) && (0 <=? Z.of_nat b - Z.of_nat a) &&
             (Z.of_nat a + (Z.of_nat b - Z.of_nat a) <=? Z.of_nat (length s))) with true by (symmetry; lia).
    rewrite Nat2Z.id. do 3 f_equal. lia.
Qed.

Lemma copy_all s : copy s 0 (Z.of_nat (length s)) = Ok s.
Proof.
  replace (Z.of_nat (length s)) with (Z.of_nat (length s) - Z.of_nat 0) by lia. change 0 with (Z.of_nat 0) at 1.
  rewrite copy_part by lia. unfold part. cbn [skipn]. rewrite Nat.sub_0_r, firstn_all. reflexivity.
Qed.

Lemma part_to_end s a : part s a (length s) = skipn a s.
Proof. unfold part. rewrite <- skipn_length. apply firstn_all. Qed.

Lemma part_length s a b : (a <= b <= length s)%nat -> length (part s a b) = (b - a)%nat.
Proof. intros H. unfold part. rewrite firstn_length, skipn_length. lia. Qed.

Lemma part_skip s a b : (a <= b)%nat -> skipn a s = part s a b ++ skipn b s.
Proof.
  intros H. unfold part. rewrite <- (firstn_skipn (b - a) (skipn a s)) at 1. f_equal.
  revert a b H. induction s as [|x s IH]; intros a b H.
  - now rewrite !skipn_nil.
  - destruct a as [|a].
    + cbn [skipn]. now rewrite Nat.sub_0_r.
    + destruct b as [|b]; [lia|]. cbn [skipn Nat.sub]. apply IH. lia.
Qed.

(** ** The loop of split *)
Fixpoint last_to (c : nat) (ms : list match_) : nat :=
  match ms with [] => c | m :: ms => last_to (m_to m) ms end.

Lemma after_last s ms : forall c, after s c ms = skipn (last_to c ms) s.
Proof. induction ms as [|m ms IH]; intros c; cbn; auto. Qed.

Section Loops.
Variables (s : list Z) (exec : Z -> answer) (find : nat -> option match_).
Hypothesis Hm : matcher s exec find.
Hypothesis Hs : steps_over_characters s find.

Lemma split_loop_ok : forall fuel o c count result,
  char_start s o -> (c <= o)%nat -> (o <= length s)%nat -> (length s + 1 - o < fuel)%nat ->
  exists ms, finds s find o ms /\ (last_to c ms <= length s)%nat /\
    split_loop fuel exec s (Z.of_nat o) (Z.of_nat c) count result =
      Ok (count + Z.of_nat (length ms), Z.of_nat (last_to c ms), result ++ between s c ms).
Proof.
  induction fuel as [|fuel IH]; intros o c count result St Hc Ho Hf; [lia|].
  cbn [split_loop]. pose proof (Hm o St) as M. destruct (find o) as [m|] eqn:F.
  - destruct M as (M1 & M2 & M3 & M4 & _ & un & ->).
    replace (Z.of_nat (S (length (m_groups m))) =? 0) with false by (symmetry; lia).
    unfold rd. cbn [nth_error bind]. rewrite copy_part by lia. cbn [bind].
    destruct (Z.eqb_spec (Z.of_nat (m_to m)) (Z.of_nat (m_from m))) as [E|E].
    + destruct (Z.of_nat (m_to m) + 1 >? Z.of_nat (length s)) eqn:L.
      * exists [m]. split; [apply finds_end; auto; lia|]. split; [exact M3|]. reflexivity.
      * destruct (IH (S (m_to m)) (m_to m) (count + 1) (result ++ [part s c (m_from m)])) as (ms & A & B & R);
          [apply (Hs o m F); lia|lia|lia|lia|].
        exists (m :: ms). split; [apply finds_empty; auto; lia|]. split; [exact B|].
        replace (Z.of_nat (m_to m) + 1) with (Z.of_nat (S (m_to m))) by lia. rewrite R.
        cbn [last_to between length]. rewrite <- app_assoc. cbn [app].
        replace (count + 1 + Z.of_nat (length ms)) with (count + Z.of_nat (S (length ms))) by lia. reflexivity.
    + destruct (IH (m_to m) (m_to m) (count + 1) (result ++ [part s c (m_from m)])) as (ms & A & B & R);
        [auto|lia|lia|lia|].
      exists (m :: ms). split; [apply finds_text; auto; lia|]. split; [exact B|]. rewrite R.
      cbn [last_to between length]. rewrite <- app_assoc. cbn [app].
      replace (count + 1 + Z.of_nat (length ms)) with (count + Z.of_nat (S (length ms))) by lia. reflexivity.
  - rewrite M. exists []. split; [now apply finds_none|]. split; [cbn; lia|].
    cbn [length last_to between]. rewrite app_nil_r, Z.add_0_r. reflexivity.
Qed.

Lemma start_0 : char_start s 0 -> exists ms, finds s find 0 ms /\ (last_to 0 ms <= length s)%nat /\
  regex_split exec s =
    Ok (match ms with
        | [] => [s]
        | _ => between s 0 ms ++ match after s 0 ms with [] => [] | r => [r] end
        end).
Proof.
  intros St. destruct (split_loop_ok (length s + 2) 0 0 0 [] St) as (ms & F & L & R); [lia|lia|lia|].
  exists ms. split; [exact F|]. split; [exact L|].
  unfold regex_split, helper_split. change (Z.of_nat 0) with 0 in R. rewrite R. cbn [bind app].
  rewrite after_last. destruct ms as [|m ms].
  - cbn [length]. change (0 + Z.of_nat 0 =? 0) with true. cbn iota. rewrite copy_all. reflexivity.
  - replace (0 + Z.of_nat (length (m :: ms)) =? 0) with false by (symmetry; cbn [length]; lia).
    destruct (Z.of_nat (last_to 0 (m :: ms)) <? Z.of_nat (length s)) eqn:E.
    + rewrite copy_part by lia. cbn [bind]. rewrite part_to_end.
      destruct (skipn (last_to 0 (m :: ms)) s) eqn:K; [|reflexivity].
      apply (f_equal (@length Z)) in K. rewrite skipn_length in K. cbn [length] in K. lia.
    + rewrite skipn_all2 by lia. now rewrite app_nil_r.
Qed.

(** ** Nothing is lost *)
Lemma weave_finds : forall o ms, finds s find o ms -> forall c, (c <= o)%nat -> char_start s o ->
  weave (between s c ms ++ match after s c ms with [] => [] | r => [r] end)
        (map (fun m => part s (m_from m) (m_to m)) ms) = skipn c s.
Proof.
  induction 1 as [o E|o m ms E L F IH|o m ms E L L' F IH|o m E L L']; intros c Hc St.
  - cbn [between after map app]. destruct (skipn c s); cbn [weave]; [reflexivity|now rewrite app_nil_r].
  - pose proof (Hm o St) as M. rewrite E in M. destruct M as (M1 & M2 & M3 & M4 & _).
    cbn [between after map app weave]. rewrite IH by auto.
    rewrite <- part_skip by lia. rewrite <- part_skip by lia. reflexivity.
  - pose proof (Hm o St) as M. rewrite E in M. destruct M as (M1 & M2 & M3 & M4 & _).
    cbn [between after map app weave]. rewrite IH by (auto; apply (Hs o m E); lia).
    rewrite <- part_skip by lia. rewrite <- part_skip by lia. reflexivity.
  - pose proof (Hm o St) as M. rewrite E in M. destruct M as (M1 & M2 & M3 & M4 & _).
    cbn [between after map app]. rewrite skipn_all2 by lia. cbn [app weave].
    rewrite (part_skip s c (m_from m)) by lia. f_equal. rewrite app_nil_r, L'. apply part_to_end.
Qed.
End Loops.

(** ** The template: characters of the source *)
Lemma src_mid pre b u : src (pre ++ b :: u) (length pre) = Ok b.
Proof.
  unfold src. rewrite app_length. cbn [length].
  replace (length pre =? length pre + S (length u))%nat with false by (symmetry; apply Nat.eqb_neq; lia).
  unfold rd. rewrite nth_error_app2, Nat.sub_diag by lia. reflexivity.
Qed.
Lemma src_end pre : src pre (length pre) = Ok 0.
Proof. unfold src. now rewrite Nat.eqb_refl. Qed.

Lemma lt_mid (pre : list Z) b u : (length pre <? length (pre ++ b :: u))%nat = true.
Proof. apply Nat.ltb_lt. rewrite app_length. cbn [length]. lia. Qed.

Lemma shift (pre : list Z) b u : pre ++ b :: u = (pre ++ [b]) ++ u.
Proof. now rewrite <- app_assoc. Qed.
Lemma shift_len (pre : list Z) (b : Z) : S (length pre) = length (pre ++ [b]).
Proof. rewrite app_length. cbn [length]. lia. Qed.

Lemma is_digit_spec b : is_digit b = true <-> digit b.
Proof. unfold is_digit, digit. lia. Qed.

Definition no_digit_first (t : list Z) : Prop := forall b t', t = b :: t' -> ~ digit b.

Lemma split_digits u : exists ds rest, u = ds ++ rest /\ Forall digit ds /\ no_digit_first rest.
Proof.
  induction u as [|b u (ds & rest & -> & D & N)].
  - exists [], []. repeat split; auto. intros b t'; discriminate.
  - destruct (is_digit b) eqn:E.
    + exists (b :: ds), rest. repeat split; auto. constructor; auto. now apply is_digit_spec.
    + exists [], (b :: ds ++ rest). repeat split; auto. intros b' t' [= <- _] D'.
      apply is_digit_spec in D'. congruence.
Qed.

Lemma digits_unique : forall ds ds' t t', Forall digit ds -> Forall digit ds' ->
  no_digit_first t -> no_digit_first t' -> ds ++ t = ds' ++ t' -> ds = ds' /\ t = t'.
Proof.
  induction ds as [|d ds IH]; intros [|d' ds'] t t' D D' N N' E; cbn [app] in E.
  - auto.
  - exfalso. apply (N d' (ds' ++ t') E). now inversion D'.
  - exfalso. apply (N' d (ds ++ t) (eq_sym E)). now inversion D.
  - injection E as -> E. destruct (IH ds' t t') as [-> ->]; auto; now inversion D; inversion D'.
Qed.

Lemma number_nonneg_aux : forall ds n, Forall digit ds -> 0 <= n ->
  0 <= fold_left (fun n d => n * 10 + (d - 48)) ds n.
Proof.
  induction ds as [|d ds IH]; intros n D Hn; cbn [fold_left]; [exact Hn|].
  inversion D as [|? ? D1 D2]; subst. apply IH; auto. unfold digit in D1. lia.
Qed.

Lemma wrap_step n d : wrapu64 (wrapu64 n * 10 + (d - 48)) = wrapu64 (n * 10 + (d - 48)).
Proof.
  unfold wrapu64. assert (H : two64 <> 0) by (unfold two64; lia).
  rewrite <- (Z.add_mod_idemp_l (n mod two64 * 10)) by auto. rewrite Z.mul_mod_idemp_l by auto.
  now rewrite Z.add_mod_idemp_l by auto.
Qed.

(** The loop over a number. *)
Lemma name_loop_digits : forall ds pre rest fuel k br n, Forall digit ds -> no_digit_first rest ->
  (length ds < fuel)%nat ->
  name_loop fuel (pre ++ ds ++ rest) (length pre) k br true (wrapu64 n) =
    let n' := wrapu64 (fold_left (fun n d => n * 10 + (d - 48)) ds n) in
    match rest with
    | 125 :: _ => if br then Ok (S (length (pre ++ ds)), false, (k + length ds)%nat, n')
                  else Ok (length (pre ++ ds), br, (k + length ds)%nat, n')
    | _ => Ok (length (pre ++ ds), br, (k + length ds)%nat, n')
    end.
Proof.
  induction ds as [|d ds IH]; intros pre rest [|fuel] k br n D N Hf; cbn [length] in Hf; try lia; cbv zeta.
  - cbn [app fold_left length]. rewrite app_nil_r, Nat.add_0_r. cbn [name_loop].
    destruct rest as [|b rest].
    + rewrite app_nil_r, Nat.ltb_irrefl. reflexivity.
    + rewrite lt_mid, src_mid. cbn [bind].
      assert (Nd : is_digit b = false).
      { destruct (is_digit b) eqn:E; auto. exfalso. apply (N b rest eq_refl). now apply is_digit_spec. }
      rewrite Nd. destruct (Z.eqb_spec b 125) as [->|Nb].
      * destruct br; reflexivity.
      * cbn [andb]. assert (K : forall X Y : res (nat * bool * nat * Z),
          match b :: rest with 125 :: _ => X | _ => Y end = Y).
        { intros X Y. destruct b as [|p|p]; auto. repeat (destruct p as [p|p|]; auto). now contradict Nb. }
        rewrite K. reflexivity.
  - inversion D as [|? ? D1 D2]; subst. cbn [app name_loop]. rewrite lt_mid, src_mid. cbn [bind].
    replace ((d =? 125) && br) with false by (unfold digit in D1; symmetry; lia).
    replace (is_digit d) with true by (symmetry; now apply is_digit_spec).
    rewrite wrap_step, shift, (shift_len pre d), IH by (auto; lia). cbv zeta. cbn [fold_left length].
    rewrite <- !app_assoc. cbn [app]. replace (S k + length ds)%nat with (k + S (length ds))%nat by lia. reflexivity.
Qed.

Lemma name_loop_total : forall fuel t i k br nv n, (length t - i < fuel)%nat ->
  exists x, name_loop fuel t i k br nv n = Ok x.
Proof.
  induction fuel as [|fuel IH]; intros t i k br nv n Hf; [lia|]. cbn [name_loop].
  destruct (Nat.ltb_spec i (length t)) as [L|L]; [|eauto].
  unfold src. replace (i =? length t)%nat with false by (symmetry; apply Nat.eqb_neq; lia).
  unfold rd. destruct (nth_error t i) eqn:E; [|apply nth_error_None in E; lia]. cbn [bind].
  destruct ((z =? 125) && br); [eauto|]. destruct nv.
  - destruct (is_digit z); [apply IH; lia|eauto].
  - destruct (is_name_char z); [apply IH; lia|eauto].
Qed.

(** The loop over ordinary characters. *)
Definition dollar_first (t : list Z) : Prop := t = [] \/ exists t', t = 36 :: t'.

Lemma split_literal u : exists l rest, u = l ++ rest /\ Forall (fun b => b <> 36) l /\ dollar_first rest.
Proof.
  induction u as [|b u (l & rest & -> & D & N)].
  - exists [], []. repeat split; auto. now left.
  - destruct (Z.eq_dec b 36) as [->|E].
    + exists [], (36 :: l ++ rest). repeat split; auto. right. eauto.
    + exists (b :: l), rest. repeat split; auto.
Qed.

Lemma text_loop_ok : forall l pre rest fuel k, Forall (fun b => b <> 36) l -> dollar_first rest ->
  (length l < fuel)%nat ->
  text_loop fuel (pre ++ l ++ rest) (length pre) k = Ok (length (pre ++ l), (k + length l)%nat).
Proof.
  induction l as [|b l IH]; intros pre rest [|fuel] k D N Hf; cbn [length] in Hf; try lia.
  - cbn [app text_loop length]. rewrite app_nil_r, Nat.add_0_r. destruct N as [->|(t' & ->)].
    + rewrite app_nil_r, Nat.ltb_irrefl. reflexivity.
    + rewrite lt_mid, src_mid. reflexivity.
  - inversion D as [|? ? D1 D2]; subst. cbn [app text_loop]. rewrite lt_mid, src_mid. cbn [bind].
    replace (b =? 36) with false by (symmetry; lia).
    rewrite shift, (shift_len pre b), IH by (auto; lia). rewrite <- app_assoc. cbn [app length].
    do 2 f_equal. lia.
Qed.

(** ** Inversions of the grammar *)
Lemma den_literal l rest its : Forall (fun b => b <> 36) l -> denotes rest its ->
  denotes (l ++ rest) (map ILit l ++ its).
Proof. induction 1; intros D; cbn [app map]; auto. constructor; auto. Qed.

Lemma inv_literal : forall l rest its, Forall (fun b => b <> 36) l -> denotes (l ++ rest) its ->
  exists its', its = map ILit l ++ its' /\ denotes rest its'.
Proof.
  induction l as [|b l IH]; intros rest its F D; cbn [app] in D.
  - exists its. auto.
  - inversion F as [|? ? F1 F2]; subst. inversion D; subst; try congruence.
    destruct (IH _ _ F2 H3) as (its' & -> & D'). exists its'. auto.
Qed.

Lemma inv_dollar_end its : ~ denotes [36] its.
Proof. inversion 1; subst; [congruence|]. destruct ds; [congruence|discriminate]. Qed.

Lemma digit_head ds t c u : ds <> [] -> Forall digit ds -> ds ++ t = c :: u -> digit c.
Proof. intros N D E. destruct D as [|d ds D _]; [congruence|]. now injection E as <- _. Qed.

Lemma inv_dollar_bad c u its : c <> 36 -> c <> 123 -> ~ digit c -> ~ denotes (36 :: c :: u) its.
Proof.
  intros N1 N2 N3 X. remember (36 :: c :: u) as w eqn:E. destruct X; try congruence.
  injection E as E. exact (N3 (digit_head _ _ _ _ H H0 E)).
Qed.

Lemma inv_dollar u its : denotes (36 :: 36 :: u) its -> exists its', its = ILit 36 :: its' /\ denotes u its'.
Proof.
  intros X. remember (36 :: 36 :: u) as w eqn:E. destruct X; try congruence.
  - injection E as ->. eauto.
  - injection E as E. pose proof (digit_head _ _ _ _ H H0 E) as D. unfold digit in D. lia.
Qed.

Lemma inv_group ds t its : ds <> [] -> Forall digit ds -> no_digit_first t ->
  denotes (36 :: ds ++ t) its -> exists its', its = IGroup (number ds) :: its' /\ denotes t its'.
Proof.
  intros N D F X. remember (36 :: ds ++ t) as u eqn:E. destruct X.
  - discriminate.
  - congruence.
  - injection E as E. destruct ds as [|d ds]; [congruence|]. injection E as <- _.
    inversion D; subst. unfold digit in *. lia.
  - injection E as E. destruct (digits_unique ds0 ds t0 t) as [-> ->]; auto. eauto.
  - injection E as E. destruct ds as [|d ds]; [congruence|]. injection E as <- _.
    inversion D; subst. unfold digit in *. lia.
Qed.

Lemma no_digit_brace t : no_digit_first (125 :: t).
Proof. intros b t' [= <- _]. unfold digit. lia. Qed.

Lemma inv_braces ds t its : Forall digit ds -> no_digit_first t ->
  denotes (36 :: 123 :: ds ++ t) its ->
  ds <> [] /\ exists t' its', t = 125 :: t' /\ its = IGroup (number ds) :: its' /\ denotes t' its'.
Proof.
  intros D F X. remember (36 :: 123 :: ds ++ t) as u eqn:E. destruct X.
  - discriminate.
  - congruence.
  - discriminate.
  - injection E as E. destruct ds0 as [|d ds0]; [congruence|]. injection E as -> _.
    inversion H0; subst. unfold digit in *. lia.
  - injection E as E. destruct (digits_unique ds0 ds (125 :: t0) t) as [-> <-]; auto using no_digit_brace.
    split; [auto|]. eauto.
Qed.

(** ** Running the programs *)
Definition caps (m : match_) (unused : list Z) : list Z :=
  Z.of_nat (m_from m) :: Z.of_nat (m_to m) :: flat_map group_numbers (m_groups m) ++ unused.
Definition ncaps (m : match_) : Z := Z.of_nat (S (length (m_groups m))) * 2.
Definition in_range (s : list Z) (m : match_) : Prop :=
  (m_from m <= m_to m <= length s)%nat /\ Forall (in_text s) (m_groups m).

Definition good (its : list item) (ls : list len_code) (vs : list val_code) : Prop :=
  forall s m unused, in_range s m ->
    (forall k, run_lens (ncaps m) (caps m unused) ls k = Ok (k + Z.of_nat (length (expansion s its m)))) /\
    (forall size out, Z.of_nat (length out) + Z.of_nat (length (expansion s its m)) <= size ->
       run_vals s (ncaps m) (caps m unused) size vs out = Ok (out ++ expansion s its m)).

Lemma good_nil : good [] [] [].
Proof.
  intros s m un R. split.
  - intros k. cbn. now rewrite Z.add_0_r.
  - intros size out _. cbn. now rewrite app_nil_r.
Qed.

Lemma good_copy l its ls vs : good its ls vs ->
  good (map ILit l ++ its) (LCopy (Z.of_nat (length l)) :: ls) (VCopy l :: vs).
Proof.
  intros G s m un R. destruct (G s m un R) as (G1 & G2).
  assert (E : expansion s (map ILit l ++ its) m = l ++ expansion s its m).
  { unfold expansion. rewrite flat_map_app. f_equal. induction l as [|b l IH]; cbn; [reflexivity|now f_equal]. }
  rewrite E, app_length. split.
  - intros k. cbn [run_lens run_len bind]. rewrite G1. f_equal. lia.
  - intros size out H. cbn [run_vals run_val bind].
    replace (Z.of_nat (length (out ++ l)) <=? size) with true by (rewrite app_length; symmetry; lia).
    rewrite G2 by (rewrite app_length; lia). now rewrite app_assoc.
Qed.

Lemma nth_flat : forall gs k g rest, nth_error gs k = Some g ->
  nth_error (flat_map group_numbers gs ++ rest) (2 * k) = nth_error (group_numbers g) 0 /\
  nth_error (flat_map group_numbers gs ++ rest) (2 * k + 1) = nth_error (group_numbers g) 1.
Proof.
  induction gs as [|g0 gs IH]; intros [|k] g rest E; cbn [nth_error] in E; try discriminate.
  - injection E as ->. destruct g as [[a b]|]; auto.
  - replace (2 * S k)%nat with (S (S (2 * k))) by lia.
    replace (S (S (2 * k)) + 1)%nat with (S (S (2 * k + 1))) by lia.
    destruct g0 as [[a b]|]; cbn [flat_map group_numbers app]; rewrite <- ?app_assoc; cbn [nth_error]; apply IH; exact E.
Qed.

Lemma group_text_nth s m n : 0 <= n ->
  group_text s m n =
    match nth (Z.to_nat n) (Some (m_from m, m_to m) :: m_groups m) None with
    | Some (a, b) => part s a b
    | None => []
    end.
Proof.
  intros H. unfold group_text. destruct (Z.eqb_spec n 0) as [->|N]; [reflexivity|].
  replace (Z.to_nat n) with (S (Z.to_nat (n - 1))) by lia. reflexivity.
Qed.

Lemma rdz_nat {A} (l : list A) k z : z = Z.of_nat k -> rdz l z = rd l k.
Proof. intros ->. unfold rdz. replace (Z.of_nat k <? 0) with false by (symmetry; lia). now rewrite Nat2Z.id. Qed.

Lemma good_group n its ls vs : 0 <= n < two63 -> good its ls vs ->
  good (IGroup n :: its) (LCapture (wrapu64 (2 * wrapu64 n)) :: ls) (VCapture (wrapu64 (2 * wrapu64 n)) :: vs).
Proof.
  intros Hn G s m un R. destruct (G s m un R) as (G1 & G2). destruct R as (R1 & R2).
  assert (W : wrapu64 (2 * wrapu64 n) = 2 * n).
  { unfold wrapu64, two64, two63 in *. rewrite (Z.mod_small n) by lia. apply Z.mod_small. lia. }
  rewrite W. clear W. unfold expansion. cbn [flat_map item_text].
  change (flat_map (item_text s m) its) with (expansion s its m).
  set (gs := Some (m_from m, m_to m) :: m_groups m).
  assert (Cp : caps m un = flat_map group_numbers gs ++ un) by reflexivity.
  assert (In : Forall (in_text s) gs) by (constructor; auto).
  assert (K : (2 * n < ncaps m -> exists a b,
      rdz (caps m un) (2 * n) = Ok a /\ rdz (caps m un) (2 * n + 1) = Ok b /\
      b - a = Z.of_nat (length (group_text s m n)) /\ copy s a (b - a) = Ok (group_text s m n)) /\
    (ncaps m <= 2 * n -> group_text s m n = [])).
  { rewrite group_text_nth by lia. fold gs. split.
    - unfold ncaps. intros L. assert (Lk : (Z.to_nat n < length gs)%nat) by (cbn [length gs]; lia).
      destruct (nth_error gs (Z.to_nat n)) as [g|] eqn:E; [|apply nth_error_None in E; lia].
      rewrite (nth_error_nth gs (Z.to_nat n) None E).
      destruct (nth_flat gs (Z.to_nat n) g un E) as (A & B). rewrite <- Cp in A, B.
      pose proof (proj1 (Forall_forall _ _) In g (nth_error_In _ _ E)) as Ig.
      rewrite (rdz_nat _ (2 * Z.to_nat n)) by lia. rewrite (rdz_nat _ (2 * Z.to_nat n + 1)) by lia.
      unfold rd. rewrite A, B. destruct g as [[a b]|]; cbn [group_numbers nth_error].
      + cbn in Ig. exists (Z.of_nat a), (Z.of_nat b). split; [reflexivity|]. split; [reflexivity|].
        split; [rewrite part_length by auto; lia|apply copy_part; auto].
      + exists (-1), (-1). repeat split.
    - unfold ncaps. intros L. rewrite nth_overflow by (cbn [length gs]; lia). reflexivity. }
  destruct K as (K1 & K2). rewrite app_length. split.
  - intros k. cbn [run_lens run_len]. destruct (Z.ltb_spec (2 * n) (ncaps m)) as [L|L].
    + destruct (K1 L) as (a & b & -> & -> & E & _). cbn [bind]. rewrite G1, E. f_equal. lia.
    + rewrite (K2 L). cbn [bind length]. rewrite G1. f_equal. lia.
  - intros size out H. cbn [run_vals run_val]. destruct (Z.ltb_spec (2 * n) (ncaps m)) as [L|L].
    + destruct (K1 L) as (a & b & -> & -> & E & Ec). cbn [bind]. rewrite Ec. cbn [bind].
      replace (Z.of_nat (length (out ++ group_text s m n)) <=? size) with true by (rewrite app_length; symmetry; lia).
      rewrite G2 by (rewrite app_length; lia). now rewrite app_assoc.
    + rewrite (K2 L) in *. cbn [bind length app] in *. rewrite app_nil_r.
      replace (Z.of_nat (length out) <=? size) with true by (symmetry; lia).
      apply G2. lia.
Qed.

(** ** Compiling a template *)
Definition small (its : list item) : Prop := forall n, In (IGroup n) its -> n < two63.

Lemma small_tail i its : small (i :: its) -> small its.
Proof. intros H n I. apply H. now right. Qed.
Lemma small_app a its : small (a ++ its) -> small its.
Proof. intros H n I. apply H. apply in_or_app. now right. Qed.

Lemma copy_lit pre l rest : copy (pre ++ l ++ rest) (Z.of_nat (length pre)) (Z.of_nat (length l)) = Ok l.
Proof.
  replace (Z.of_nat (length l)) with (Z.of_nat (length (pre ++ l)) - Z.of_nat (length pre)) by (rewrite app_length; lia).
  rewrite copy_part by (rewrite !app_length; lia). f_equal. unfold part. rewrite app_length.
  rewrite skipn_app, skipn_all, Nat.sub_diag. cbn [skipn app].
  replace (length pre + length l - length pre)%nat with (length l) by lia.
  rewrite firstn_app, firstn_all, Nat.sub_diag. cbn [firstn]. now rewrite app_nil_r.
Qed.

Definition compiles (u : list Z) (ls : list len_code) (vs : list val_code) (r : res (list len_code * list val_code)) : Prop :=
  (forall its, denotes u its -> small its ->
     exists ls' vs', r = Ok (ls ++ ls', vs ++ vs') /\ good its ls' vs') /\
  ((forall its, ~ denotes u its) -> r = Exn ValueError).

Lemma compiles_bad u ls vs : (forall its, ~ denotes u its) -> compiles u ls vs (Exn ValueError).
Proof. intros N. split; [intros its D; contradiction (N its D)|reflexivity]. Qed.

Lemma script_compile_ok : forall fuel pre u ls vs, (length u < fuel)%nat ->
  compiles u ls vs (script_compile fuel (pre ++ u) (length pre) ls vs).
Proof.
  induction fuel as [|fuel IH]; intros pre u ls vs Hf; [lia|]. cbn [script_compile].
  destruct u as [|b u].
  { rewrite app_nil_r, Nat.ltb_irrefl. split.
    - intros its D _. inversion D; subst. exists [], []. rewrite !app_nil_r. split; [reflexivity|apply good_nil].
    - intros N. contradiction (N [] den_nil). }
  rewrite lt_mid, src_mid. cbn [bind length] in *. destruct (Z.eqb_spec b 36) as [->|Nb].
  - rewrite (shift_len pre 36). rewrite !(shift pre 36 u).
    destruct u as [|c u].
    { rewrite app_nil_r, src_end. cbn [bind]. apply compiles_bad. apply inv_dollar_end. }
    rewrite src_mid. cbn [bind]. cbv zeta. destruct (Z.eqb_spec c 0) as [->|N0].
    { apply compiles_bad. intros its. apply inv_dollar_bad; unfold digit; lia. }
    destruct (Z.eqb_spec c 36) as [->|N36].
    { pose proof (copy_lit (pre ++ [36]) [36] u) as Ec. change ([36] ++ u) with (36 :: u) in Ec.
      change (Z.of_nat (length [36])) with 1 in Ec. rewrite Ec. cbn [bind]. clear Ec.
      rewrite (shift_len (pre ++ [36]) 36), (shift (pre ++ [36]) 36 u). cbn [length] in Hf.
      destruct (IH ((pre ++ [36]) ++ [36]) u (ls ++ [LCopy 1]) (vs ++ [VCopy [36]])) as (P & Q); [lia|]. split.
      - intros its D S. destruct (inv_dollar u its D) as (its' & -> & D').
        destruct (P its' D' (small_tail _ _ S)) as (ls' & vs' & -> & G).
        exists (LCopy 1 :: ls'), (VCopy [36] :: vs'). rewrite <- !app_assoc. split; [reflexivity|].
        apply (good_copy [36] its' ls' vs' G).
      - intros N. apply Q. intros its D. exact (N _ (den_dollar _ _ D)). }
    destruct (Z.eqb_spec c 123) as [->|N123].
    + (* ${ *)
      rewrite (shift_len (pre ++ [36]) 123), !(shift (pre ++ [36]) 123 u).
      set (pre2 := (pre ++ [36]) ++ [123]).
      assert (Epre : forall v, pre2 ++ v = (pre ++ [36]) ++ 123 :: v)
        by (intros v; unfold pre2; now rewrite <- !app_assoc).
      destruct u as [|d u].
      { rewrite app_nil_r, src_end. cbn [bind]. apply compiles_bad. intros its D.
        destruct (inv_braces [] [] its) as (K & _); auto. intros ? ? [=]. }
      rewrite src_mid. cbn [bind]. destruct (Z.eqb_spec d 0) as [->|Nd].
      { cbn [bind]. apply compiles_bad. intros its D.
        destruct (inv_braces [] (0 :: u) its) as (K & _); auto. intros ? ? [= <- _]. unfold digit. lia. }
      cbn [bind]. change (is_digit 123) with false. destruct (is_digit d) eqn:Dd.
      * destruct (split_digits (d :: u)) as (ds & rest & E & Ds & Nr). rewrite E in *.
        assert (Nn : ds <> []).
        { intros ->. cbn [app] in E. apply (Nr d u (eq_sym E)). now apply is_digit_spec. }
        change 0 with (wrapu64 0) at 1.
        rewrite name_loop_digits by (auto; rewrite !app_length; lia). cbv zeta.
        change (fold_left (fun n d => n * 10 + (d - 48)) ds 0) with (number ds).
        assert (Len : (0 + length ds =? 0)%nat = false) by (destruct ds; [congruence|reflexivity]).
        assert (Bad : (forall t', rest <> 125 :: t') -> compiles (36 :: 123 :: ds ++ rest) ls vs (Exn ValueError)).
        { intros Nt. apply compiles_bad. intros its D. destruct (inv_braces ds rest its Ds Nr D) as (_ & t' & _ & -> & _).
          now apply (Nt t'). }
        destruct rest as [|r rest]; [apply Bad; congruence|].
        destruct (Z.eq_dec r 125) as [->|Nr'].
        -- cbn [bind]. rewrite Len. cbn [negb].
           rewrite (shift_len (pre2 ++ ds) 125).
           assert (Et : pre2 ++ ds ++ 125 :: rest = ((pre2 ++ ds) ++ [125]) ++ rest) by (now rewrite <- !app_assoc).
           rewrite Et.
           set (w := wrapu64 (2 * wrapu64 (number ds))).
           cbn [length] in Hf. apply (f_equal (@length Z)) in E. cbn [length] in E. rewrite app_length in E. cbn [length] in E.
           destruct (IH ((pre2 ++ ds) ++ [125]) rest (ls ++ [LCapture w]) (vs ++ [VCapture w])) as (P & Q);
             [rewrite ?app_length in Hf; cbn [length] in Hf; lia|]. split.
           ++ intros its D S. destruct (inv_braces ds (125 :: rest) its Ds Nr D) as (_ & t' & its' & [= <-] & -> & D').
              destruct (P its' D' (small_tail _ _ S)) as (ls' & vs' & -> & G).
              exists (LCapture w :: ls'), (VCapture w :: vs'). rewrite <- !app_assoc. split; [reflexivity|].
              apply good_group; auto. split; [apply number_nonneg_aux; auto; lia|apply S; now left].
           ++ intros N. apply Q. intros its D. exact (N _ (den_braces _ _ _ Nn Ds D)).
        -- assert (K : forall X Y : res (nat * bool * nat * Z), match r :: rest with 125 :: _ => X | _ => Y end = Y).
           { intros X Y. destruct r as [|p|p]; auto. repeat (destruct p as [p|p|]; auto). now contradict Nr'. }
           rewrite K. cbn [bind]. apply Bad. congruence.
      * destruct (name_loop_total (S (length (pre2 ++ d :: u))) (pre2 ++ d :: u) (length pre2) 0 true false 0)
          as ([[[i' br'] k'] n'] & ->); [lia|]. cbn [bind negb].
        assert (Bad : compiles (36 :: 123 :: d :: u) ls vs (Exn ValueError)).
        { apply compiles_bad. intros its D.
          destruct (inv_braces [] (d :: u) its) as (K & _); auto. intros ? ? [= <- _] Dg.
          apply is_digit_spec in Dg. congruence. }
        destruct br'; [exact Bad|]. destruct (k' =? 0)%nat; exact Bad.
    + cbn [bind]. destruct (is_digit c) eqn:Dc.
      * destruct (split_digits (c :: u)) as (ds & rest & E & Ds & Nr). rewrite E in *.
        assert (Nn : ds <> []).
        { intros ->. cbn [app] in E. apply (Nr c u (eq_sym E)). now apply is_digit_spec. }
        change 0 with (wrapu64 0) at 1.
        rewrite name_loop_digits by (auto; rewrite !app_length; lia). cbv zeta.
        change (fold_left (fun n d => n * 10 + (d - 48)) ds 0) with (number ds).
        assert (Len : (0 + length ds =? 0)%nat = false) by (destruct ds; [congruence|reflexivity]).
        assert (K : forall Y : res (nat * bool * nat * Z), match rest with 125 :: _ => Y | _ => Y end = Y).
        { intros Y. destruct rest as [|[|p|p] rest]; auto. repeat (destruct p as [p|p|]; auto). }
        rewrite K. cbn [bind]. rewrite Len. cbn [negb].
        assert (Et : (pre ++ [36]) ++ ds ++ rest = ((pre ++ [36]) ++ ds) ++ rest) by (now rewrite <- !app_assoc).
        rewrite Et. set (w := wrapu64 (2 * wrapu64 (number ds))).
        cbn [length] in Hf. apply (f_equal (@length Z)) in E. rewrite app_length in E. cbn [length] in E.
        assert (Ln : (0 < length ds)%nat) by (destruct ds; [congruence|cbn; lia]).
        destruct (IH ((pre ++ [36]) ++ ds) rest (ls ++ [LCapture w]) (vs ++ [VCapture w])) as (P & Q);
          [rewrite ?app_length in Hf; cbn [length] in Hf; lia|]. split.
        -- intros its D S. destruct (inv_group ds rest its Nn Ds Nr D) as (its' & -> & D').
           destruct (P its' D' (small_tail _ _ S)) as (ls' & vs' & -> & G).
           exists (LCapture w :: ls'), (VCapture w :: vs'). rewrite <- !app_assoc. split; [reflexivity|].
           apply good_group; auto. split; [apply number_nonneg_aux; auto; lia|apply S; now left].
        -- intros N. apply Q. intros its D. exact (N _ (den_group _ _ _ Nn Ds Nr D)).
      * destruct (name_loop_total (S (length ((pre ++ [36]) ++ c :: u))) ((pre ++ [36]) ++ c :: u) (length (pre ++ [36])) 0 false false 0)
          as ([[[i' br'] k'] n'] & ->); [lia|]. cbn [bind negb].
        assert (Bad : compiles (36 :: c :: u) ls vs (Exn ValueError)).
        { apply compiles_bad. intros its. apply inv_dollar_bad; auto. intros Dg. apply is_digit_spec in Dg. congruence. }
        destruct br'; [exact Bad|]. destruct (k' =? 0)%nat; exact Bad.
  - destruct (split_literal (b :: u)) as (l & rest & E & Fl & Dr). rewrite E.
    assert (Ln : l <> []).
    { intros ->. cbn [app] in E. destruct Dr as [->|(t' & ->)]; congruence. }
    rewrite text_loop_ok by (auto; rewrite !app_length; lia). cbn [bind Nat.add]. rewrite copy_lit. cbn [bind].
    assert (Et : pre ++ l ++ rest = (pre ++ l) ++ rest) by (now rewrite <- !app_assoc). rewrite Et.
    apply (f_equal (@length Z)) in E. rewrite app_length in E. cbn [length] in E.
    assert (Ll : (0 < length l)%nat) by (destruct l; [congruence|cbn; lia]).
    destruct (IH (pre ++ l) rest (ls ++ [LCopy (Z.of_nat (length l))]) (vs ++ [VCopy l])) as (P & Q); [lia|]. split.
    + intros its D S. destruct (inv_literal l rest its Fl D) as (its' & -> & D').
      destruct (P its' D' (small_app _ _ S)) as (ls' & vs' & -> & G).
      exists (LCopy (Z.of_nat (length l)) :: ls'), (VCopy l :: vs'). rewrite <- !app_assoc. split; [reflexivity|].
      apply good_copy; auto.
    + intros N. apply Q. intros its D. exact (N _ (den_literal l rest its Fl D)).
Qed.

(** ** Replacing *)
Lemma no_dollar t : (length (filter (Z.eqb 36) t) =? 0)%nat = true -> Forall (fun b => b <> 36) t.
Proof.
  intros H. apply Nat.eqb_eq, length_zero_iff_nil in H. apply Forall_forall. intros b I ->.
  assert (K : In 36 (filter (Z.eqb 36) t)) by (apply filter_In; auto). rewrite H in K. exact K.
Qed.

Lemma expansion_lits s l m : expansion s (map ILit l) m = l.
Proof. unfold expansion. induction l as [|b l IH]; cbn; [reflexivity|now f_equal]. Qed.

Definition works (t : list Z) (its : list item) (val : option (list len_code * list val_code)) : Prop :=
  forall s c m unused, in_range s m -> (c <= m_from m)%nat ->
    sub_replace s (Z.of_nat c) (Z.of_nat (S (length (m_groups m)))) (caps m unused) t val =
      Ok (part s c (m_from m) ++ expansion s its m).

Lemma tpl_compile_ok t its : denotes t its -> small its ->
  exists val, tpl_compile t = Ok val /\ works t its val.
Proof.
  intros D S. unfold tpl_compile. destruct (length (filter (Z.eqb 36) t) =? 0)%nat eqn:E.
  - exists None. split; [reflexivity|]. intros s c m un R Hc. destruct R as (R1 & _).
    cbn [sub_replace]. unfold rd, caps. cbn [nth_error bind]. rewrite copy_part by lia. cbn [bind].
    apply no_dollar in E. pose proof (inv_literal t [] its E) as K. rewrite app_nil_r in K.
    destruct (K D) as (its' & -> & D'). inversion D'; subst. now rewrite app_nil_r, expansion_lits.
  - destruct (proj1 (script_compile_ok (Datatypes.S (length t)) [] t [] [] ltac:(lia)) its D S) as (ls & vs & Hr & G).
    cbn [app length] in Hr. rewrite Hr. cbn [rmap]. exists (Some (ls, vs)). split; [reflexivity|].
    intros s c m un R Hc. destruct (G s m un R) as (G1 & G2). destruct R as (R1 & _).
    cbn [sub_replace]. fold (ncaps m). rewrite G1. cbn [bind]. rewrite G2 by (cbn [length]; lia). cbn [bind app].
    unfold rd. unfold caps at 1. cbn [nth_error bind]. rewrite copy_part by lia. cbn [bind].
    rewrite Z.add_0_l, copy_all. reflexivity.
Qed.

Lemma tpl_compile_bad t : (forall its, ~ denotes t its) -> tpl_compile t = Exn ValueError.
Proof.
  intros N. unfold tpl_compile. destruct (length (filter (Z.eqb 36) t) =? 0)%nat eqn:E.
  - apply no_dollar in E. pose proof (den_literal t [] [] E den_nil) as K. rewrite app_nil_r in K. contradiction (N _ K).
  - pose proof (proj2 (script_compile_ok (S (length t)) [] t [] [] ltac:(lia)) N) as Hr. cbn [app length] in Hr.
    now rewrite Hr.
Qed.

Fixpoint replaced_heads (s : list Z) (c : nat) (its : list item) (ms : list match_) : list Z :=
  match ms with
  | [] => []
  | m :: ms => part s c (m_from m) ++ expansion s its m ++ replaced_heads s (m_to m) its ms
  end.

Lemma replaced_split s its ms : forall c, replaced s c its ms = replaced_heads s c its ms ++ skipn (last_to c ms) s.
Proof. induction ms as [|m ms IH]; intros c; cbn; [reflexivity|]. now rewrite IH, <- !app_assoc. Qed.

Lemma sub_loop_ok s exec find t its val : matcher s exec find -> steps_over_characters s find -> works t its val ->
  forall fuel o c count result,
  char_start s o -> (c <= o)%nat -> (o <= length s)%nat -> (length s + 1 - o < fuel)%nat ->
  exists ms, finds s find o ms /\ (last_to c ms <= length s)%nat /\
    sub_loop fuel exec s t val true (Z.of_nat o) (Z.of_nat c) count result =
      Ok (count + Z.of_nat (length ms), Z.of_nat (last_to c ms), result ++ replaced_heads s c its ms).
Proof.
  intros Hm Hs Hw. induction fuel as [|fuel IH]; intros o c count result St Hc Ho Hf; [lia|].
  cbn [sub_loop]. pose proof (Hm o St) as M. destruct (find o) as [m|] eqn:F.
  - destruct M as (M1 & M2 & M3 & M4 & M5 & un & ->). fold (caps m un).
    replace (Z.of_nat (S (length (m_groups m))) =? 0) with false by (symmetry; lia).
    rewrite (Hw s c m un) by (try split; auto; lia). cbn [bind].
    unfold rd. unfold caps. cbn [nth_error bind].
    destruct (Z.eqb_spec (Z.of_nat (m_to m)) (Z.of_nat (m_from m))) as [E|E].
    + destruct (Z.of_nat (m_to m) + 1 >? Z.of_nat (length s)) eqn:L.
      * exists [m]. split; [apply finds_end; auto; lia|]. split; [exact M3|].
        cbn [replaced_heads last_to length]. rewrite app_nil_r. reflexivity.
      * destruct (IH (S (m_to m)) (m_to m) (count + 1) (result ++ part s c (m_from m) ++ expansion s its m))
          as (ms & A & B & R); [apply (Hs o m F); lia|lia|lia|lia|].
        exists (m :: ms). split; [apply finds_empty; auto; lia|]. split; [exact B|].
        replace (Z.of_nat (m_to m) + 1) with (Z.of_nat (S (m_to m))) by lia. rewrite R.
        cbn [last_to replaced_heads length]. rewrite <- !app_assoc.
        replace (count + 1 + Z.of_nat (length ms)) with (count + Z.of_nat (S (length ms))) by lia. reflexivity.
    + destruct (IH (m_to m) (m_to m) (count + 1) (result ++ part s c (m_from m) ++ expansion s its m))
        as (ms & A & B & R); [auto|lia|lia|lia|].
      exists (m :: ms). split; [apply finds_text; auto; lia|]. split; [exact B|]. rewrite R.
      cbn [last_to replaced_heads length]. rewrite <- !app_assoc.
      replace (count + 1 + Z.of_nat (length ms)) with (count + Z.of_nat (S (length ms))) by lia. reflexivity.
  - rewrite M. exists []. split; [now apply finds_none|]. split; [cbn; lia|].
    cbn [length last_to replaced_heads]. rewrite app_nil_r, Z.add_0_r. reflexivity.
Qed.

Lemma regex_replace_ok s exec find t its : matcher s exec find -> steps_over_characters s find ->
  char_start s 0 -> denotes t its -> small its ->
  exists ms, finds s find 0 ms /\ regex_replace exec s t = Ok (replaced s 0 its ms).
Proof.
  intros Hm Hs St D S. destruct (tpl_compile_ok t its D S) as (val & Ec & Hw).
  destruct (sub_loop_ok s exec find t its val Hm Hs Hw (length s + 2) 0 0 0 [] St) as (ms & F & L & R); [lia|lia|lia|].
  exists ms. split; [exact F|]. unfold regex_replace, sub_helper. rewrite Ec. cbn [bind].
  change (Z.of_nat 0) with 0 in R. rewrite R. cbn [bind app]. rewrite replaced_split.
  destruct ms as [|m ms].
  - cbn [length last_to replaced_heads app skipn]. change (0 + Z.of_nat 0 =? 0) with true. cbn iota.
    now rewrite copy_all.
  - replace (0 + Z.of_nat (length (m :: ms)) =? 0) with false by (symmetry; cbn [length]; lia).
    destruct (Z.of_nat (last_to 0 (m :: ms)) <? Z.of_nat (length s)) eqn:E.
    + rewrite copy_part by lia. cbn [bind]. now rewrite part_to_end.
    + rewrite skipn_all2 by lia. now rewrite app_nil_r.
Qed.

Lemma regex_replace_bad s exec t : (forall its, ~ denotes t its) -> regex_replace exec s t = Ok s.
Proof. intros N. unfold regex_replace, sub_helper. now rewrite tpl_compile_bad. Qed.

(** The matches are determined by the matcher. *)
Lemma finds_unique s find : forall o ms, finds s find o ms -> forall ms', finds s find o ms' -> ms = ms'.
Proof.
  induction 1 as [o E|o m ms E L F IH|o m ms E L L' F IH|o m E L L']; intros ms' X; inversion X; subst;
    try congruence; try (assert (m0 = m) by congruence; subst; try lia; f_equal; auto).
Qed.

(** ** Match *)
Lemma match_groups_ok s m un : in_range s m -> forall k i,
  match_groups s (Z.of_nat (S (length (m_groups m)))) (caps m un) (Z.of_nat i) k =
    Ok (map (fun i => group_text s m (Z.of_nat i)) (seq i k)).
Proof.
  intros (R1 & R2). set (gs := Some (m_from m, m_to m) :: m_groups m).
  assert (Cp : caps m un = flat_map group_numbers gs ++ un) by reflexivity.
  assert (Ig : Forall (in_text s) gs) by (constructor; auto).
  induction k as [|k IH]; intros i; [reflexivity|]. cbn [match_groups seq map].
  replace (Z.of_nat i + 1) with (Z.of_nat (S i)) by lia. rewrite IH.
  rewrite (group_text_nth s m (Z.of_nat i)) by lia. rewrite Nat2Z.id. fold gs.
  destruct (Z.of_nat i >=? Z.of_nat (S (length (m_groups m)))) eqn:L.
  - rewrite nth_overflow by (cbn [length gs]; lia). reflexivity.
  - destruct (nth_error gs i) as [g|] eqn:E; [|apply nth_error_None in E; cbn [length gs] in E; lia].
    rewrite (nth_error_nth gs i None E). destruct (nth_flat gs i g un E) as (A & B). rewrite <- Cp in A, B.
    pose proof (proj1 (Forall_forall _ _) Ig g (nth_error_In _ _ E)) as I.
    rewrite (rdz_nat _ (2 * i)) by lia. rewrite (rdz_nat _ (2 * i + 1)) by lia.
    unfold rd. rewrite A, B. destruct g as [[a b]|]; cbn [group_numbers nth_error bind].
    + replace (Z.of_nat a <? 0) with false by (symmetry; lia). rewrite copy_part by exact I. reflexivity.
    + reflexivity.
Qed.

Lemma name_number_small num : 0 <= num < 128 -> name_number num = num.
Proof.
  intros H. unfold name_number. rewrite Z.div_small, Z.mod_small by lia. unfold schar.
  replace (num <? 128) with true by (symmetry; lia). reflexivity.
Qed.

Lemma name_number_high num : 128 <= num < 256 -> name_number num < 0.
Proof.
  intros H. unfold name_number. rewrite Z.div_small, Z.mod_small by lia. unfold schar.
  replace (num <? 128) with false by (symmetry; lia). cbn [Z.ltb Z.compare]. change (0 * 256) with 0. rewrite Z.lor_0_l. lia.
Qed.

Lemma name_number_high_eq num : 128 <= num < 256 -> name_number num = num - 256.
Proof.
  intros H. unfold name_number. rewrite Z.div_small, Z.mod_small by lia. unfold schar.
  replace (num <? 128) with false by (symmetry; lia). change (0 <? 128) with true. cbn iota. change (0 * 256) with 0.
  now rewrite Z.lor_0_l.
Qed.

Lemma match_names_ok s m ng names : Z.of_nat ng < two63 ->
  (forall name num, In (name, num) names -> 0 <= num < 128 /\ num <= Z.of_nat ng) ->
  match_names (groups_of s m ng) names = Ok (named_of s m names).
Proof.
  intros Hg. induction names as [|(name, num) names IH]; intros H; [reflexivity|].
  cbn [match_names]; cbv zeta. destruct (H name num) as (H1 & H2); [now left|].
  rewrite IH by (intros nm k I; apply (H nm k); now right). rewrite name_number_small by auto.
  unfold groups_of at 1. rewrite map_length, seq_length.
  replace (wrapu64 num >=? Z.of_nat (S ng)) with false
    by (symmetry; unfold wrapu64, two64; rewrite Z.mod_small by lia; lia).
  rewrite (rdz_nat _ (Z.to_nat num)) by lia. unfold rd, groups_of.
  rewrite nth_error_map. rewrite (nth_error_nth' (seq 0 (S ng)) 0%nat) by (rewrite seq_length; lia).
  rewrite seq_nth by lia. cbn [option_map bind rmap named_of map fst snd]. do 4 f_equal. lia.
Qed.

Lemma regex_match_ok s exec find ng names o : matcher s exec find -> char_start s o -> s <> [] ->
  Z.of_nat ng < two63 ->
  (forall name num, In (name, num) names -> 0 <= num < 128 /\ num <= Z.of_nat ng) ->
  regex_match exec false ng names s (Z.of_nat o) =
    Ok (match find o with Some m => (groups_of s m ng, named_of s m names) | None => ([], []) end).
Proof.
  intros Hm St Ne Hg Hn. unfold regex_match.
  replace (Z.of_nat (length s) <=? 0) with false by (destruct s; [congruence|cbn [length]; symmetry; lia]).
  pose proof (Hm o St) as M. destruct (find o) as [m|].
  - destruct M as (M1 & M2 & M3 & M4 & M5 & un & ->). fold (caps m un).
    replace (Z.of_nat (S (length (m_groups m))) =? 0) with false by (symmetry; lia).
    change 0 with (Z.of_nat 0) at 1. rewrite match_groups_ok by (split; auto; lia). cbn [bind].
    fold (groups_of s m ng). rewrite match_names_ok by auto. reflexivity.
  - now rewrite M.
Qed.

Lemma match_names_lost groups names : Z.of_nat (length groups) < two63 ->
  (forall name num, In (name, num) names -> 128 <= num < 256) -> match_names groups names = Ok [].
Proof.
  intros Hg. induction names as [|(name, num) names IH]; intros H; [reflexivity|]. cbn [match_names]; cbv zeta.
  assert (R : 128 <= num < 256) by (apply (H name num); now left).
  rewrite name_number_high_eq by auto.
  assert (W : wrapu64 (num - 256) = num - 256 + two64).
  { unfold wrapu64. symmetry. apply (Z.mod_unique _ _ (-1)); unfold two64; lia. }
  rewrite W. replace (num - 256 + two64 >=? Z.of_nat (length groups)) with true
    by (symmetry; unfold two63, two64 in *; lia).
  apply IH. intros nm k I. apply (H nm k). now right.
Qed.
