(** Programs over tries behave as over dictionaries. *)
From Verif Require Import Base ListAux Utf8Model Utf8Spec Utf8Proofs TrModel TrRing TrFree TrCells TrRoom TrPlace TrTree TrMove TrLoop TrFollow TrSearch TrRestore TrSpec.
From Coq Require Import Sorted.
Local Open Scope Z_scope.

(** ** One trie *)
Definition nodes_of (a : Z -> node) (n : Z) (d : dict) : Prop :=
  exists t0 loc, Rest t0 loc /\ a = arr t0 /\ n = size t0 /\ (forall k, bound t0 loc k = d k) /\ (forall k v, d k = Some v -> plain v).
(** the nodes hold the dictionary; what else there is, if it is there, is right *)
Definition Holds (t : da) (d : dict) : Prop :=
  nodes_of (arr t) (size t) d /\ (ready t = true -> exists loc, Rest t loc /\ forall k, bound t loc k = d k).

Lemma int32_fits v : int32 v = true <-> fits v.
Proof. unfold int32, fits. rewrite andb_true_iff, Z.leb_le, Z.ltb_lt. tauto. Qed.
Lemma wraps32_id v : fits v -> wraps32 v = v.
Proof. unfold fits, wraps32. intros H. rewrite Z.mod_small; lia. Qed.
Lemma bound_key t loc k : Rest t loc -> bound t loc k <> None -> key_ok k /\ k <> [].
Proof.
  intros (F & T & L) H. unfold bound in H. destruct (loc (k ++ [0])) as [i|] eqn:E; [|easy]. destruct (t_node _ _ _ _ _ _ _ T _ _ _ E) as (_ & Z0 & N & j & LP & _). split; [|intros ->; now apply N].
  clear H E N. revert j LP Z0. induction k as [|c k IH] using rev_ind; intros j LP Z0; [intros ? []|]. destruct (t_node _ _ _ _ _ _ _ T _ _ _ LP) as (HC & Z1 & _ & j' & LP' & _).
  intros x I. rewrite in_app_iff in I. destruct I as [I|[<-|[]]]; [now apply (IH j')|]. assert (c <> 0); [|lia]. intros ->. apply Z0. rewrite in_app_iff. right. now left.
Qed.
Lemma initial_holds : Holds initial none.
Proof.
  assert (B : forall k, bound initial (fun p => match p with [] => Some 0 | _ => None end) k = none k) by (intros [|c k]; easy).
  split; [|intros _; exists (fun p => match p with [] => Some 0 | _ => None end); split; [apply initial_rest|exact B]].
  exists initial, (fun p => match p with [] => Some 0 | _ => None end). split; [apply initial_rest|]. repeat split; try easy.
Qed.
Lemma load_holds t f d : nodes_of (snd f) (fst f) d -> Holds (load f t) d.
Proof. intros H. split; [exact H|]. cbn. easy. Qed.

Lemma update_holds t d k v : Holds t d -> k <> [] -> key_ok k -> fits v -> plain (TrSpec.add (d k) v) ->
  exists t', update t k v = Ok (Some t') /\ Holds t' (bind_key d k (TrSpec.add (d k) v)).
Proof.
  intros (N & RD) NK KO FV PL. destruct N as (t0 & loc & R0 & A0 & S0 & B0 & P0).
  assert (G : exists t1 loc1, Rest t1 loc1 /\ (forall k, bound t1 loc1 k = d k) /\ update t k v = update t1 k v).
  { destruct (ready t) eqn:ER; [destruct (RD eq_refl) as (loc1 & R1 & B1); exists t, loc1; easy|].
    destruct (restore_ok t0 t loc R0 A0 S0) as (t1 & E1 & R1 & A1 & S1). exists t1, loc. split; [easy|]. split; [intros k'; rewrite <- B0; unfold bound; rewrite A1, A0; easy|].
    destruct k as [|c k]; [easy|]. unfold update. rewrite ER, E1. assert (X : ready t1 = true) by apply R1. rewrite X. reflexivity. }
  destruct G as (t1 & loc1 & R1 & B1 & ->).
  assert (PE : TrSearch.plus (bound t1 loc1 k) v = TrSpec.add (d k) v) by (rewrite B1; reflexivity).
  destruct (update_ready t1 loc1 k v R1 NK KO) as (t' & loc' & E & R' & B'); [rewrite PE; apply int32_fits, PL|].
  exists t'. split; [exact E|].
  assert (BD : forall k', bound t' loc' k' = bind_key d k (TrSpec.add (d k) v) k') by (intros k'; rewrite B', PE, B1; reflexivity).
  split; [|intros _; exists loc'; easy]. exists t', loc'. repeat (split; [easy|]). intros k' v' H. unfold bind_key in H. destruct (list_eq_dec Z.eq_dec k' k); [injection H as <-; exact PL|now apply (P0 k')].
Qed.

Lemma get_same t t0 i : arr t = arr t0 -> size t = size t0 -> get_a t i = get_a t0 i.
Proof. intros A S. unfold get_a. now rewrite A, S. Qed.
Lemma cps_same t t0 : arr t = arr t0 -> size t = size t0 -> forall w from pos, common_prefix_search t from pos w = common_prefix_search t0 from pos w.
Proof.
  intros A S. induction w as [|c w IH]; intros from pos; [reflexivity|]. cbn [common_prefix_search]. unfold find1. rewrite (get_same t t0 _ A S). destruct (get_a t0 from) as [n| | |]; [|reflexivity..]. cbn [bind].
  rewrite (get_same t t0 _ A S). destruct (get_a t0 (Z.lxor (base_ n) c)) as [m| | |]; [|reflexivity..]. cbn [bind]. destruct (negb (check m =? from)); cbn [bind]; [destruct (NO_PATH =? NO_PATH); [reflexivity|now rewrite IH]|].
  rewrite (get_same t t0 _ A S). destruct (get_a t0 (base_ m)) as [x| | |]; [|reflexivity..]. cbn [bind]. rewrite IH. reflexivity.
Qed.
Lemma search_holds t d w : Holds t d -> Forall (fun c => 0 <= c < 256) w -> (forall k r, w = k ++ 0 :: r -> d k = None) ->
  common_prefix_search t 0 0 w = Ok (found d [] 0 w).
Proof.
  intros ((t0 & loc & R0 & A0 & S0 & B0 & P0) & _) W NU. rewrite (cps_same t t0 A0 S0).
  rewrite (search_ok t0 loc R0) with (p := []).
  - f_equal. assert (X : forall w p pos, found (bound t0 loc) p pos w = found d p pos w); [|apply X]. clear - B0. induction w as [|c w IH]; intros p pos; [reflexivity|]. cbn [found]. now rewrite B0, IH.
  - intros k v H. rewrite B0 in H. apply P0 in H as (_ & H). exact H.
  - apply R0.
  - intros ? [].
  - rewrite Forall_forall in W. exact W.
  - intros k r E. cbn [app]. rewrite B0. now apply (NU k r).
Qed.

(** ** Matches *)
Fixpoint gfound (e : Z -> list Z) (d : dict) (p : list Z) (n : Z) (w : list Z) : list (Z * Z) :=
  match w with
  | [] => []
  | c :: w => match d (p ++ e c) with Some v => [(n + 1, v)] | None => [] end ++ gfound e d (p ++ e c) (n + 1) w
  end.
Lemma gfound_matches e d : forall w p m, flat_map (fun n => match d (p ++ flat_map e (firstn (n - m) w)) with Some v => [(Z.of_nat n, v)] | None => [] end) (seq (S m) (length w)) = gfound e d p (Z.of_nat m) w.
Proof.
  induction w as [|c w IH]; intros p m; [reflexivity|]. cbn [length seq flat_map gfound]. replace (S m - m)%nat with 1%nat by lia. cbn [firstn flat_map]. rewrite app_nil_r. f_equal.
  - destruct (d (p ++ e c)); [|reflexivity]. do 2 f_equal. lia.
  - replace (Z.of_nat m + 1) with (Z.of_nat (S m)) by lia. rewrite <- IH.
    assert (Y : forall l, (forall n, In n l -> (S m < n)%nat) -> flat_map (fun n => match d (p ++ flat_map e (firstn (n - m) (c :: w))) with Some v => [(Z.of_nat n, v)] | None => [] end) l
       = flat_map (fun n => match d ((p ++ e c) ++ flat_map e (firstn (n - S m) w)) with Some v => [(Z.of_nat n, v)] | None => [] end) l).
    { induction l as [|n l IL]; intros H; [reflexivity|]. cbn [flat_map]. rewrite IL by (intros k I; apply H; now right). specialize (H n (or_introl eq_refl)).
      replace (n - m)%nat with (S (n - S m)) by lia. cbn [firstn flat_map]. rewrite <- app_assoc. reflexivity. }
    apply Y. intros n I. apply in_seq in I. lia.
Qed.
Lemma flat_one (l : list Z) : flat_map (fun c => [c]) l = l.
Proof. induction l as [|c l IH]; [reflexivity|]. cbn. now rewrite IH. Qed.
Lemma flat_map_same {A B} (f g : A -> list B) l : (forall x, f x = g x) -> flat_map f l = flat_map g l.
Proof. intros H. induction l as [|x l IH]; [reflexivity|]. cbn. now rewrite H, IH. Qed.
Lemma gfound_bytes d : forall w p n, gfound (fun c => [c]) d p n w = found d p n w.
Proof. induction w as [|c w IH]; intros p n; [reflexivity|]. cbn [gfound found]. now rewrite IH. Qed.
Lemma matches_bytes d w : matches d (Bytes w) = found d [] 0 w.
Proof.
  rewrite <- gfound_bytes. change 0 with (Z.of_nat 0). rewrite <- gfound_matches. unfold matches. cbn [chars prefix coded]. apply flat_map_same. intros n. cbn [app]. now rewrite flat_one, Nat.sub_0_r.
Qed.
Lemma matches_str d w : matches d (Str w) = gfound enc1 d [] 0 w.
Proof. change 0 with (Z.of_nat 0). rewrite <- gfound_matches. unfold matches. cbn [chars prefix coded]. apply flat_map_same. intros n. cbn [app]. now rewrite Nat.sub_0_r. Qed.
Lemma gfound_bounds e d : forall w p n x, In x (gfound e d p n w) -> n < fst x <= n + Z.of_nat (length w).
Proof.
  induction w as [|c w IH]; intros p n x; cbn [gfound]; [intros []|]. rewrite in_app_iff. cbn [length]. intros [I|I]; [|apply IH in I; lia]. destruct (d (p ++ e c)); [|destruct I]. destruct I as [<-|[]]. cbn. lia.
Qed.
Lemma found_rising d : forall w p pos, StronglySorted (fun x y => fst x < fst y) (found d p pos w) /\ forall x, In x (found d p pos w) -> pos < fst x <= pos + Z.of_nat (length w).
Proof.
  induction w as [|c w IH]; intros p pos; cbn [found]; [split; [constructor|intros ? []]|]. destruct (IH (p ++ [c]) (pos + 1)) as [S B]. cbn [length].
  destruct (d (p ++ [c])) as [v|]; cbn [app]; [|split; [exact S|intros x I; apply B in I; lia]]. split.
  - constructor; [exact S|]. apply Forall_forall. intros x I. apply B in I. cbn. lia.
  - intros x [<-|I]; [cbn; lia|]. apply B in I. lia.
Qed.
Lemma longest_last (l : list (Z * Z)) : forall a, StronglySorted (fun x y => fst x < fst y) l -> (forall x, In x l -> fst a < fst x) ->
  fold_left (fun r x => if fst r <? fst x then x else r) l a = last l a.
Proof.
  induction l as [|x l IH]; intros a S B; [reflexivity|]. cbn [fold_left]. destruct (Z.ltb_spec (fst a) (fst x)) as [L|L]; [|specialize (B x (or_introl eq_refl)); lia].
  inversion S as [|? ? S' F]; subst. rewrite Forall_forall in F. rewrite IH by easy. destruct l as [|y l]; [reflexivity|]. cbn [last]. clear. revert y. induction l as [|z l IL]; intros y; [reflexivity|]. apply IL.
Qed.

(** ** Text *)
Ltac Zify.zify_post_hook ::= Z.div_mod_to_equations.
Definition point (c : Z) : Prop := 0 <= c <= 1114111.
Lemma enc1_greedy c : point c -> greedy_encode_one c = enc1 c.
Proof.
  unfold point. intros H. rewrite encode_one_arith by lia. unfold enc_arith, enc1. destruct (Z.ltb_spec c 128); [reflexivity|].
  destruct (Z.leb_spec c 2047), (Z.ltb_spec c 2048); try lia; [reflexivity|]. destruct (Z.leb_spec c 65535), (Z.ltb_spec c 65536); try lia; [reflexivity|]. destruct (Z.leb_spec c 1114111); [reflexivity|lia].
Qed.
Lemma enc_greedy cs : Forall point cs -> greedy_encode cs = enc cs.
Proof. induction 1 as [|c cs P _ IH]; [reflexivity|]. cbn. now rewrite enc1_greedy, IH. Qed.
Lemma encode_enc cs : Forall point cs -> utf8_encode cs = Ok (enc cs).
Proof. intros H. rewrite utf8_encode_ok. now rewrite enc_greedy. Qed.
Lemma enc1_bytes c : point c -> Forall (fun b => 0 <= b < 256) (enc1 c).
Proof.
  unfold point, enc1. intros H. destruct (Z.ltb_spec c 128); [|destruct (Z.ltb_spec c 2048); [|destruct (Z.ltb_spec c 65536)]]; repeat (apply Forall_cons; [lia|]); apply Forall_nil.
Qed.
Lemma enc_bytes cs : Forall point cs -> Forall (fun b => 0 <= b < 256) (enc cs).
Proof. induction 1 as [|c cs P _ IH]; [constructor|]. cbn. apply Forall_app. split; [now apply enc1_bytes|exact IH]. Qed.
Lemma enc1_zero c : point c -> In 0 (enc1 c) -> c = 0.
Proof.
  unfold point, enc1. intros H. destruct (Z.ltb_spec c 128); [|destruct (Z.ltb_spec c 2048); [|destruct (Z.ltb_spec c 65536)]]; cbn [In]; intros I; repeat (destruct I as [I|I]; [lia|]); destruct I.
Qed.
Lemma enc_zero cs : Forall point cs -> In 0 (enc cs) -> In 0 cs.
Proof. induction 1 as [|c cs P _ IH]; [easy|]. cbn. rewrite in_app_iff. intros [I|I]; [left; now apply enc1_zero|right; now apply IH]. Qed.
Lemma enc1_ne c : enc1 c <> [].
Proof. unfold enc1. destruct (c <? 128), (c <? 2048), (c <? 65536); discriminate. Qed.
Lemma cons_eq (x y : Z) l m : x :: l = y :: m -> x = y /\ l = m.
Proof. intros E. injection E as -> ->. easy. Qed.
Local Ltac conses := repeat match goal with H : _ :: _ = _ :: _ |- _ => apply cons_eq in H as [? H] end.
Lemma enc1_free c c' r r' : point c -> point c' -> enc1 c ++ r = enc1 c' ++ r' -> c = c' /\ r = r'.
Proof.
  unfold point, enc1. intros H H'. destruct (Z.ltb_spec c 128), (Z.ltb_spec c' 128); try lia; cbn [app].
  - intros E. injection E as -> ->. easy.
  - destruct (Z.ltb_spec c' 2048); [|destruct (Z.ltb_spec c' 65536)]; cbn [app]; intros E; conses; exfalso; lia.
  - destruct (Z.ltb_spec c 2048); [|destruct (Z.ltb_spec c 65536)]; cbn [app]; intros E; conses; exfalso; lia.
  - destruct (Z.ltb_spec c 2048); [|destruct (Z.ltb_spec c 65536)]; (destruct (Z.ltb_spec c' 2048); [|destruct (Z.ltb_spec c' 65536)]); cbn [app]; intros E; conses; first [exfalso; lia | split; [lia|assumption]].
Qed.
Lemma enc_app a b : enc (a ++ b) = enc a ++ enc b.
Proof. apply flat_map_app. Qed.
Lemma enc_prefix : forall k w r, Forall point k -> Forall point w -> enc w = enc k ++ r -> exists w', w = k ++ w' /\ r = enc w'.
Proof.
  induction k as [|c k IH]; intros w r K W E; [exists w; easy|]. cbn in E. rewrite <- app_assoc in E. inversion K as [|? ? PC K']; subst. destruct w as [|c' w].
  - cbn in E. symmetry in E. apply app_eq_nil in E as [E _]. elim (enc1_ne _ E).
  - cbn in E. inversion W as [|? ? PC' W']; subst. destruct (enc1_free c' c (enc w) (enc k ++ r) PC' PC E) as [-> E']. destruct (IH w r K' W' E') as (w' & -> & ->). exists w'. easy.
Qed.
Lemma one_char_enc c r : point c -> exists b s, enc1 c ++ r = b :: s /\ one_char_len b = Ok (Z.of_nat (length (enc1 c))).
Proof.
  unfold point, enc1. intros H. assert (T : forall b n, 0 <= b < 256 -> nth_error [1; 1; 1; 1; 1; 1; 1; 1; 1; 1; 1; 1; 2; 2; 3; 4] (Z.to_nat (b / 16)) = Some n -> one_char_len b = Ok n).
  { intros b n B E. unfold one_char_len, rdz, rd. destruct (Z.ltb_spec (b / 16) 0); [lia|]. now rewrite E. }
  destruct (Z.ltb_spec c 128); [|destruct (Z.ltb_spec c 2048); [|destruct (Z.ltb_spec c 65536)]]; cbn [app length]; eexists; eexists; (split; [reflexivity|]); apply T; try lia.
  - assert (X : Z.to_nat (c / 16) = 0%nat \/ Z.to_nat (c / 16) = 1%nat \/ Z.to_nat (c / 16) = 2%nat \/ Z.to_nat (c / 16) = 3%nat \/ Z.to_nat (c / 16) = 4%nat \/ Z.to_nat (c / 16) = 5%nat \/ Z.to_nat (c / 16) = 6%nat \/ Z.to_nat (c / 16) = 7%nat) by lia.
    repeat (destruct X as [->|X]; [reflexivity|]). rewrite X. reflexivity.
  - assert (X : Z.to_nat ((192 + c / 64) / 16) = 12%nat \/ Z.to_nat ((192 + c / 64) / 16) = 13%nat) by lia. destruct X as [-> | ->]; reflexivity.
  - assert (X : Z.to_nat ((224 + c / 4096) / 16) = 14%nat) by lia. rewrite X; reflexivity.
  - assert (X : Z.to_nat ((240 + c / 262144) / 16) = 15%nat) by lia. rewrite X; reflexivity.
Qed.
Lemma count_enc cs : Forall point cs -> greedy_count (enc cs) = Ok (Z.of_nat (length cs)).
Proof.
  intros P. pose proof (utf8_round_trip cs P) as RT. rewrite encode_enc in RT by easy. cbn [bind] in RT.
  destruct (utf8_decode_outcome (enc cs)) as (cs' & D & C & _); [apply (Forall_impl _) with (2 := enc_bytes cs P); intros a H; exact H|]. rewrite RT in D. injection D as <-. exact C.
Qed.

(** ** Searches for text *)
Definition texts (d : dict) : Prop := forall k, d k <> None -> exists cs, Forall point cs /\ k = enc cs.
Lemma found_whole d : forall s p pos r, s <> [] -> (forall q q', s = q ++ q' -> q <> [] -> q' <> [] -> d (p ++ q) = None) ->
  found d p pos (s ++ r) = match d (p ++ s) with Some v => [(pos + Z.of_nat (length s), v)] | None => [] end ++ found d (p ++ s) (pos + Z.of_nat (length s)) r.
Proof.
  induction s as [|c s IH]; intros p pos r NE H; [easy|]. cbn [app found]. destruct s as [|c' s].
  - cbn [app length]. reflexivity.
  - rewrite (H [c] (c' :: s)) by easy. cbn [app] in IH |- *. rewrite (IH (p ++ [c])).
    + rewrite <- !app_assoc. cbn [app length]. replace (pos + 1 + Z.of_nat (S (length s))) with (pos + Z.of_nat (S (S (length s)))) by lia. reflexivity.
    + easy.
    + intros q q' E NQ NQ'. rewrite <- app_assoc. apply (H (c :: q) q'); [cbn; now rewrite E|easy|easy].
Qed.
Lemma inside_none d p c q q' : texts d -> Forall point p -> point c -> enc1 c = q ++ q' -> q <> [] -> q' <> [] -> d (enc p ++ q) = None.
Proof.
  intros T P C E NQ NQ'. destruct (d (enc p ++ q)) eqn:D; [|reflexivity]. exfalso. destruct (T (enc p ++ q)) as (cs & PC & EC); [congruence|].
  assert (PW : Forall point (p ++ [c])) by (apply Forall_app; split; [easy|now constructor]).
  destruct (enc_prefix cs (p ++ [c]) q' PC PW) as (w' & EW & EQ).
  { rewrite enc_app. cbn. rewrite app_nil_r, E, app_assoc, EC. reflexivity. }
  destruct (list_eq_dec Z.eq_dec w' []) as [->|NW]; [cbn in EQ; easy|]. destruct (exists_last NW) as (w2 & c2 & ->). rewrite app_assoc in EW. apply app_inj_tail in EW as [EP _]. rewrite EP, enc_app in EC.
  apply (f_equal (@length Z)) in EC. rewrite !app_length in EC. destruct q; [easy|]. cbn in EC. lia.
Qed.
Definition widen (w : list Z) (x : Z * Z) : Z * Z := (Z.of_nat (length (enc (firstn (Z.to_nat (fst x)) w))), snd x).
Lemma found_text d : texts d -> forall w p, Forall point p -> Forall point w ->
  found d (enc p) (Z.of_nat (length (enc p))) (enc w) = map (widen (p ++ w)) (gfound enc1 d (enc p) (Z.of_nat (length p)) w).
Proof.
  intros T. induction w as [|c w IH]; intros p P W; [reflexivity|]. inversion W as [|? ? C W']; subst. cbn [gfound]. change (enc (c :: w)) with (enc1 c ++ enc w).
  rewrite found_whole; [|apply enc1_ne|intros q q' E NQ NQ'; now apply (inside_none d p c q q')]. rewrite map_app.
  assert (E1 : enc p ++ enc1 c = enc (p ++ [c])) by (rewrite enc_app; cbn; now rewrite app_nil_r). rewrite E1.
  assert (E2 : Z.of_nat (length (enc p)) + Z.of_nat (length (enc1 c)) = Z.of_nat (length (enc (p ++ [c])))) by (rewrite <- E1, app_length; lia). rewrite E2. f_equal.
  - destruct (d (enc (p ++ [c]))) as [v|]; [|reflexivity]. cbn [map]. unfold widen. cbn [fst snd]. replace (Z.to_nat (Z.of_nat (length p) + 1)) with (length (p ++ [c])) by (rewrite app_length; cbn; lia).
    replace (p ++ c :: w) with ((p ++ [c]) ++ w) by (rewrite <- app_assoc; reflexivity). rewrite firstn_app, Nat.sub_diag, firstn_all. cbn [firstn]. rewrite app_nil_r. reflexivity.
  - rewrite IH; [|apply Forall_app; split; [easy|now constructor]|easy]. replace (Z.of_nat (length p) + 1) with (Z.of_nat (length (p ++ [c]))) by (rewrite app_length; cbn; lia).
    replace (p ++ c :: w) with ((p ++ [c]) ++ w) by (rewrite <- app_assoc; reflexivity). reflexivity.
Qed.
Lemma found_str d w : texts d -> Forall point w -> found d [] 0 (enc w) = map (widen w) (matches d (Str w)).
Proof. intros T W. rewrite matches_str. apply (found_text d T w [] ltac:(constructor) W). Qed.

Lemma len2count_ok : forall w fuel count len, Forall point w -> (length (enc w) < fuel)%nat ->
  exists m, len2count fuel (enc w) count len = Ok m /\
    (forall x, In x m -> len < fst x) /\
    forall n, (0 < n <= length w)%nat -> lookup m (len + Z.of_nat (length (enc (firstn n w)))) = Some (count + Z.of_nat n).
Proof.
  induction w as [|c w IH]; intros fuel count len W F; (destruct fuel as [|fuel]; [lia|]).
  - exists []. split; [reflexivity|]. split; [intros ? []|]. cbn. lia.
  - inversion W as [|? ? C W']; subst. change (enc (c :: w)) with (enc1 c ++ enc w) in *. cbn [len2count]. destruct (one_char_enc c (enc w) C) as (b & s & ES & EL). rewrite ES, EL. cbn [bind]. rewrite <- ES.
    rewrite Nat2Z.id, skipn_app, skipn_all2, Nat.sub_diag by lia. cbn [app skipn].
    pose proof (enc1_ne c) as NE. assert (LE : (0 < length (enc1 c))%nat) by (destruct (enc1 c); [easy|cbn; lia]). rewrite app_length in F.
    destruct (IH fuel (count + 1) (len + Z.of_nat (length (enc1 c))) W' ltac:(lia)) as (m & EM & BM & LM). rewrite EM. cbn [bind]. eexists. split; [reflexivity|]. split.
    + intros x [<-|I]; [cbn; lia|]. apply BM in I. lia.
    + intros n Hn. cbn [length] in Hn. destruct n as [|n]; [lia|]. cbn [firstn]. change (enc (c :: firstn n w)) with (enc1 c ++ enc (firstn n w)). rewrite app_length. unfold lookup. cbn [find fst].
      destruct n as [|n].
      * cbn [firstn enc flat_map length]. rewrite Nat.add_0_r, Z.eqb_refl. reflexivity.
      * destruct (Z.eqb_spec (len + Z.of_nat (length (enc1 c))) (len + Z.of_nat (length (enc1 c) + length (enc (firstn (S n) w))))) as [E|_].
        { exfalso. destruct w as [|c' w]; [cbn [length] in Hn; lia|]. cbn [firstn] in E. change (enc (c' :: firstn n w)) with (enc1 c' ++ enc (firstn n w)) in E. rewrite app_length in E. pose proof (enc1_ne c'). destruct (enc1 c'); [easy|]. cbn [length] in E. lia. }
        specialize (LM (S n) ltac:(lia)). unfold lookup in LM. rewrite Nat2Z.inj_add, Z.add_assoc, LM. f_equal. lia.
Qed.
Lemma rename_ok m w : forall l, (forall n, (0 < n <= length w)%nat -> lookup m (Z.of_nat (length (enc (firstn n w)))) = Some (Z.of_nat n)) ->
  (forall x, In x l -> 0 < fst x <= Z.of_nat (length w)) -> rename m (map (widen w) l) = l.
Proof.
  induction l as [|[n v] l IH]; intros H B; [reflexivity|]. cbn [map rename widen fst snd]. pose proof (B (n, v) (or_introl eq_refl)) as Bn. cbn in Bn.
  rewrite H by lia. rewrite Z2Nat.id by lia. rewrite IH; [reflexivity|easy|]. intros x I. apply B. now right.
Qed.

Lemma from_substr l pos : substr l pos = from pos l.
Proof.
  unfold substr, from, slice_index_correction. f_equal. f_equal. destruct (Z.ltb_spec pos 0).
  - destruct (Z.ltb_spec pos (- Z.of_nat (length l))); lia.
  - destruct (Z.ltb_spec (Z.of_nat (length l)) pos); lia.
Qed.
Lemma results_ok l : (length l <= 64)%nat -> results l = Ok l.
Proof. intros H. unfold results. destruct (Nat.ltb_spec 64 (length l)); [lia|reflexivity]. Qed.
Lemma last_map {A B} (f : A -> B) l a : last (map f l) (f a) = f (last l a).
Proof. induction l as [|x l IH]; [reflexivity|]. destruct l; [reflexivity|]. exact IH. Qed.
Lemma last_in {A} (l : list A) a : last l a = a \/ In (last l a) l.
Proof. induction l as [|x l IH]; [now left|]. destruct l as [|y l]; [right; now left|]. destruct IH as [IH|IH]; [left; exact IH|right; right; exact IH]. Qed.

Lemma prefix_search_ok t d w : Holds t d -> Forall (fun c => 0 <= c < 256) w -> (forall k r, w = k ++ 0 :: r -> d k = None) -> (length (found d [] 0 w) <= 64)%nat ->
  prefix_search t w = Ok (last (found d [] 0 w) (0, -1)) /\ prefix_search_all t w = Ok (found d [] 0 w).
Proof.
  intros H W N L. unfold prefix_search, prefix_search_all. rewrite (search_holds t d w H W N). cbn [bind]. rewrite results_ok by easy. cbn [bind]. split; [|reflexivity].
  unfold longest. rewrite longest_last; [reflexivity|apply found_rising|]. intros x I. apply found_rising in I. cbn. lia.
Qed.
Lemma trie_search_ok t d x pos : Holds t d -> searchable d (rest x pos) ->
  trie_prefix_search t x pos = Ok (last (matches d (rest x pos)) (0, -1)) /\ trie_prefix_search_all t x pos = Ok (matches d (rest x pos)).
Proof.
  intros H (P & N & L & T). destruct x as [b|cs]; cbn [rest trie_prefix_search trie_prefix_search_all] in *; rewrite from_substr; cbn [coded proper] in *.
  - rewrite matches_bytes in *. now apply prefix_search_ok.
  - set (w := from pos cs) in *. rewrite (encode_enc w P). cbn [bind]. pose proof (found_str d w T P) as FS.
    destruct (prefix_search_ok t d (enc w) H (enc_bytes w P) N) as [E1 E2]; [rewrite FS, map_length; exact L|]. rewrite E1, E2. cbn [bind]. rewrite FS.
    assert (BD : forall x, In x (matches d (Str w)) -> 0 < fst x <= Z.of_nat (length w)) by (intros x I; rewrite matches_str in I; apply gfound_bounds in I; lia).
    split.
    + change (0, -1) with (widen w (0, -1)) at 1. rewrite last_map. destruct (last (matches d (Str w)) (0, -1)) as [n v] eqn:EL. unfold widen at 1. cbn [fst snd].
      assert (BN : 0 <= n <= Z.of_nat (length w)). { destruct (last_in (matches d (Str w)) (0, -1)) as [X|X]; rewrite EL in X; [injection X as -> ->; lia|]. apply BD in X. cbn in X. lia. }
      assert (ES : enc w = enc (firstn (Z.to_nat n) w) ++ enc (skipn (Z.to_nat n) w)) by (now rewrite <- enc_app, firstn_skipn).
      rewrite ES at 1. rewrite Nat2Z.id, firstn_app, Nat.sub_diag, firstn_all. cbn [firstn]. rewrite app_nil_r.
      rewrite count_enc by (rewrite <- (firstn_skipn (Z.to_nat n) w) in P; now apply Forall_app in P). cbn [bind]. rewrite firstn_length. do 2 f_equal. lia.
    + destruct (len2count_ok w (S (length (enc w))) 0 0 P ltac:(lia)) as (m & EM & _ & LM). rewrite EM. cbn [bind]. rewrite (rename_ok m w); [reflexivity|exact LM|exact BD].
Qed.

(** ** Keys and dictionaries *)
Lemma key_bytes x : key x -> bytes_of x = Ok (coded x) /\ coded x <> [] /\ key_ok (coded x).
Proof.
  intros (P & N & Z0). destruct x as [b|cs]; cbn [bytes_of coded proper chars] in *.
  - split; [reflexivity|]. split; [easy|]. intros c I. rewrite Forall_forall in P. specialize (P c I). assert (c <> 0) by (intros ->; easy). lia.
  - split; [now apply encode_enc|]. split.
    + destruct cs as [|c cs]; [easy|]. change (enc (c :: cs)) with (enc1 c ++ enc cs). intros E. apply app_eq_nil in E as [E _]. elim (enc1_ne c E).
    + intros c I. pose proof (enc_bytes cs P) as B. rewrite Forall_forall in B. specialize (B c I). assert (c <> 0); [|cbn in B; lia]. intros ->. now apply Z0, enc_zero.
Qed.
Lemma bind_same d k v v' k' : bind_key (bind_key d k v) k v' k' = bind_key d k v' k'.
Proof. unfold bind_key. now destruct (list_eq_dec Z.eq_dec k' k). Qed.
(** the same dictionary, written differently *)
Lemma Holds_ext t d d' : (forall k, d k = d' k) -> Holds t d -> Holds t d'.
Proof.
  intros E ((t0 & loc & R0 & A0 & S0 & B0 & P0) & RD). split.
  - exists t0, loc. repeat (split; [easy|]). split; [intros k; rewrite B0; apply E|]. intros k v. rewrite <- E. apply P0.
  - intros R. destruct (RD R) as (l & R1 & B1). exists l. split; [easy|]. intros k. rewrite B1. apply E.
Qed.
Fixpoint pairs (l : list (list Z * Z)) : dict := match l with [] => none | (k, v) :: l => bind_key (pairs l) k v end.
Lemma key_lt_irrefl a : key_lt a a = false.
Proof. induction a as [|x a IH]; [reflexivity|]. cbn. rewrite Z.ltb_irrefl, Z.eqb_refl, IH. reflexivity. Qed.
Lemma key_lt_total a : forall b, key_lt a b = false -> key_lt b a = false -> a = b.
Proof.
  induction a as [|x a IH]; intros [|y b]; cbn; try easy. intros H1 H2. apply orb_false_iff in H1 as [H1 H1'], H2 as [H2 H2']. apply Z.ltb_ge in H1, H2. assert (x = y) by lia. subst y.
  rewrite Z.eqb_refl in H1', H2'. cbn in H1', H2'. f_equal. now apply IH.
Qed.
Lemma emplace_in m k v : ~ In k (map fst m) -> (forall k', In k' (map fst (emplace m k v)) <-> In k' (map fst m) \/ k' = k) /\ (NoDup (map fst m) -> NoDup (map fst (emplace m k v))) /\
  (forall x, In x (emplace m k v) <-> In x m \/ x = (k, v)).
Proof.
  induction m as [|[k0 v0] m IH]; intros N; cbn [emplace].
  - split; [intros k'; cbn; intuition congruence|]. split; [intros _; constructor; [intros []|constructor]|]. intros x. cbn. intuition congruence.
  - cbn [map fst In] in N. destruct IH as (I1 & I2 & I3); [tauto|]. destruct (key_lt k0 k) eqn:L1.
    + split; [intros k'; cbn; rewrite I1; tauto|]. split; [|intros x; cbn; rewrite I3; tauto]. intros ND. cbn in *. inversion ND as [|? ? NI ND']; subst. constructor; [|now apply I2]. rewrite I1. intros [X|X]; [easy|]. apply N. now left.
    + destruct (key_lt k k0) eqn:L2; [|elim N; left; now apply key_lt_total].
      split; [intros k'; cbn; intuition congruence|]. split; [|intros x; cbn; intuition congruence]. intros ND. cbn in *. constructor; [cbn; tauto|easy].
Qed.
Lemma pairs_in m : NoDup (map fst m) -> forall k v, pairs m k = Some v <-> In (k, v) m.
Proof.
  induction m as [|[k0 v0] m IH]; intros ND k v; cbn [pairs]; [split; [easy|intros []]|]. cbn in ND. inversion ND as [|? ? NI ND']; subst. unfold bind_key. cbn. destruct (list_eq_dec Z.eq_dec k k0) as [->|NE].
  - split; [intros E; injection E as ->; now left|]. intros [E|I]; [injection E as ->; reflexivity|]. elim NI. apply in_map_iff. exists (k0, v). easy.
  - rewrite IH by easy. split; [tauto|]. intros [E|I]; [congruence|easy].
Qed.
Lemma items_in l : NoDup (map (fun p => coded (fst p)) l) -> forall k v, items l k = Some v <-> exists x, In (x, v) l /\ coded x = k.
Proof.
  induction l as [|[x0 v0] l IH]; intros ND k v; cbn [items]; [split; [easy|intros (x & [] & _)]|]. cbn in ND. inversion ND as [|? ? NI ND']; subst. unfold bind_key. destruct (list_eq_dec Z.eq_dec k (coded x0)) as [->|NE].
  - split; [intros E; injection E as ->; exists x0; split; [now left|reflexivity]|]. intros (x & [E|I] & EC); [injection E as -> ->; reflexivity|]. elim NI. apply in_map_iff. exists (x, v). easy.
  - rewrite IH by easy. split; intros (x & I & E); exists x; (split; [|easy]); [now right|]. destruct I as [X|I]; [congruence|easy].
Qed.
Lemma make_map_ok : forall dic m, Forall (fun p => key (fst p) /\ plain (snd p)) dic -> NoDup (map fst m) -> NoDup (map (fun p => coded (fst p)) dic) ->
  (forall k, In k (map fst m) -> ~ In k (map (fun p => coded (fst p)) dic)) ->
  exists m', make_map m dic = Ok m' /\ NoDup (map fst m') /\ forall k v, In (k, v) m' <-> In (k, v) m \/ exists x, In (x, v) dic /\ coded x = k.
Proof.
  induction dic as [|[x v] dic IH]; intros m F NM ND DJ; cbn [make_map].
  - exists m. split; [reflexivity|]. split; [easy|]. intros k w. split; [now left|]. intros [H|(x & [] & _)]. exact H.
  - inversion F as [|? ? [KX _] F']; subst. cbn in KX. destruct (key_bytes x KX) as (-> & _). cbn [bind]. cbn in ND. inversion ND as [|? ? NI ND']; subst.
    assert (NK : ~ In (coded x) (map fst m)) by (intros I; apply (DJ _ I); now left). destruct (emplace_in m (coded x) v NK) as (E1 & E2 & E3).
    destruct (IH (emplace m (coded x) v) F' (E2 NM) ND') as (m' & EM & N' & I').
    { intros k I. apply E1 in I as [I| ->]; [|easy]. intros J. apply (DJ _ I). now right. }
    exists m'. split; [exact EM|]. split; [exact N'|]. intros k w. rewrite I', E3. split.
    + intros [[H|H]|(y & H & HE)]; [now left|injection H as -> ->; right; exists x; split; [now left|reflexivity]|right; exists y; split; [now right|exact HE]].
    + intros [H|(y & [H|H] & HE)]; [left; now left|injection H as -> ->; left; right; now rewrite HE|right; exists y; easy].
Qed.
Lemma build_ok : forall m t d, Holds t d -> NoDup (map fst m) -> (forall k v, In (k, v) m -> k <> [] /\ key_ok k /\ plain v /\ d k = None) ->
  exists t' d', build t m = Ok (Some t') /\ Holds t' d' /\ forall k v, d' k = Some v <-> d k = Some v \/ In (k, v) m.
Proof.
  induction m as [|[k v] m IH]; intros t d H ND HM; cbn [build].
  - exists t, d. split; [reflexivity|]. split; [easy|]. intros k v. split; [now left|intros [X|[]]; exact X].
  - destruct (HM k v (or_introl eq_refl)) as (NK & KO & PV & DN). cbn in ND. inversion ND as [|? ? NI ND']; subst. rewrite wraps32_id by apply PV.
    destruct (update_holds t d k v H NK KO) as (t1 & E1 & H1); [apply PV|rewrite DN; exact PV|]. rewrite E1. cbn [bind]. rewrite DN in H1. cbn [TrSpec.add] in H1.
    destruct (IH t1 (bind_key d k v) H1 ND') as (t' & d' & E' & H' & I').
    { intros k' v' I. destruct (HM k' v' (or_intror I)) as (A & B & C & D). repeat (split; [easy|]). unfold bind_key. destruct (list_eq_dec Z.eq_dec k' k) as [->|]; [|easy]. elim NI. apply in_map_iff. exists (k, v'). easy. }
    exists t', d'. split; [exact E'|]. split; [exact H'|]. intros k' v'. rewrite I'. unfold bind_key. cbn [In]. destruct (list_eq_dec Z.eq_dec k' k) as [->|NE].
    + rewrite DN. split; [intros [X|X]; [injection X as ->; right; now left|right; now right]|]. intros [X|[X|X]]; [easy|injection X as ->; now left|now right].
    + split; [intros [X|X]; [now left|right; now right]|]. intros [X|[X|X]]; [now left|congruence|now right].
Qed.
Lemma make_ok dic : Forall (fun p => key (fst p) /\ plain (snd p)) dic -> NoDup (map (fun p => coded (fst p)) dic) -> exists t, make dic = Ok (Some t) /\ Holds t (items dic).
Proof.
  intros F ND. unfold make. destruct (make_map_ok dic [] F ltac:(constructor) ND ltac:(intros k [])) as (m & -> & NM & IM). cbn [bind].
  destruct (build_ok m initial none initial_holds NM) as (t & d & E & H & I).
  - intros k v HI. apply IM in HI as [[]|(x & HI & <-)]. rewrite Forall_forall in F. destruct (F _ HI) as [KX PX]. cbn in KX, PX. destruct (key_bytes x KX) as (_ & A & B). easy.
  - exists t. split; [exact E|]. apply (Holds_ext t d); [|exact H]. intros k. destruct (d k) as [v|] eqn:D.
    + apply I in D as [D|D]; [easy|]. apply IM in D as [[]|D]. symmetry. now apply items_in.
    + destruct (items dic k) as [v|] eqn:D2; [|reflexivity]. apply items_in in D2; [|exact ND]. assert (X : d k = Some v) by (apply I; right; apply IM; right; exact D2). congruence.
Qed.

(** ** Programs *)
Record Match (s : state) (p : sstate) : Prop := {
  m_tries : Forall2 Holds (tries s) (dicts p);
  m_files : forall n, match files s n, saved p n with Some f, Some d => nodes_of (snd f) (fst f) d | None, None => True | _, _ => False end }.
Lemma Match_at s p i : Match s p -> (i < length (dicts p))%nat -> exists t, trie s i = Ok t /\ Holds t (at_ p i).
Proof.
  intros [F _] L. unfold trie, at_. revert i L. induction F as [|t d ts ds H F IH]; intros i L; [cbn in L; lia|]. destruct i as [|i]; [exists t; easy|]. cbn in L. apply (IH i). lia.
Qed.
Lemma Match_put s p i t d : Match s p -> (i < length (dicts p))%nat -> Holds t d -> Match (put_trie s i t) (put p i d).
Proof.
  intros [F L] LI H. split; [|exact L]. cbn [tries put_trie dicts put]. clear L. revert i LI. induction F as [|t0 d0 ts ds H0 F IH]; intros i LI; [cbn in LI; lia|]. destruct i as [|i]; cbn [lset firstn skipn app]; [now constructor|].
  constructor; [easy|]. cbn in LI. apply IH. lia.
Qed.
Lemma step_ok s p o : Match s p -> fine TrSpec.add false p o -> exists s', step s o = Ok (Some s', snd (sstep TrSpec.add p o)) /\ Match s' (fst (sstep TrSpec.add p o)).
Proof.
  intros M F. destruct o as [dic|i x v|i x pos|i x pos|i name|i name]; cbn [step sstep fine] in *.
  - destruct F as [F ND]. destruct (make_ok dic F ND) as (t & -> & H). cbn [bind]. eexists. split; [reflexivity|]. destruct M as [M1 M2]. split; [|exact M2]. cbn [tries dicts fst]. apply Forall2_app; [exact M1|]. constructor; [exact H|constructor].
  - destruct F as (L & K & FV & PV & _). destruct (Match_at s p i M L) as (t & -> & H). cbn [bind]. unfold trie_update. destruct (key_bytes x K) as (-> & NK & KO). cbn [bind]. rewrite wraps32_id by exact FV.
    destruct (update_holds t (at_ p i) (coded x) v H NK KO FV PV) as (t' & -> & H'). cbn [bind]. eexists. split; [reflexivity|]. now apply Match_put.
  - destruct F as (L & SE). destruct (Match_at s p i M L) as (t & -> & H). cbn [bind]. destruct (trie_search_ok t _ x pos H SE) as [-> _]. cbn [bind]. destruct (last (matches (at_ p i) (rest x pos)) (0, -1)) as [n v]. eexists. split; [reflexivity|exact M].
  - destruct F as (L & SE). destruct (Match_at s p i M L) as (t & -> & H). cbn [bind]. destruct (trie_search_ok t _ x pos H SE) as [_ ->]. cbn [bind]. eexists. split; [reflexivity|exact M].
  - destruct (Match_at s p i M F) as (t & -> & H). cbn [bind]. eexists. split; [reflexivity|]. destruct M as [M1 M2]. split; [exact M1|]. intros n. cbn [files saved fst]. unfold upd. destruct (Z.eqb_spec n name); [|apply M2]. apply H.
  - destruct (Match_at s p i M F) as (t & -> & H). cbn [bind]. pose proof (m_files _ _ M name) as MF. destruct (files s name) as [f|], (saved p name) as [d|]; try easy; (eexists; split; [reflexivity|]); [|exact M].
    cbn [fst]. apply Match_put; [exact M|exact F|]. now apply load_holds.
Qed.
Lemma run_ok : forall ops s p, Match s p -> fines TrSpec.add false p ops -> run s ops = Ok (srun TrSpec.add p ops).
Proof.
  induction ops as [|o ops IH]; intros s p M F; [reflexivity|]. destruct F as [F FS]. cbn [run srun]. destruct (step_ok s p o M F) as (s' & -> & M'). cbn [bind]. destruct (sstep TrSpec.add p o) as [p' r]. cbn [fst snd] in *.
  rewrite (IH s' p' M' FS). reflexivity.
Qed.
Lemma start_match : Match start sstart.
Proof. split; [constructor|easy]. Qed.
(** for keys not there yet, adding is setting *)
Lemma fresh_step s o : fine replace true s o -> fine TrSpec.add false s o /\ sstep TrSpec.add s o = sstep replace s o.
Proof.
  destruct o as [dic|i x v|i x pos|i x pos|i name|i name]; cbn [fine sstep]; intros F; try (split; [exact F|reflexivity]).
  destruct F as (A & B & C & D & E). specialize (E eq_refl). rewrite E. cbn [TrSpec.add replace] in *. split; [|reflexivity]. easy.
Qed.
Lemma fresh_run : forall ops s, fines replace true s ops -> fines TrSpec.add false s ops /\ srun TrSpec.add s ops = srun replace s ops.
Proof.
  induction ops as [|o ops IH]; intros s F; [easy|]. destruct F as [F FS]. destruct (fresh_step s o F) as [F' E]. cbn [fines srun]. rewrite E. destruct (sstep replace s o) as [s' r]. cbn [fst] in *. destruct (IH s' FS) as [H1 H2]. split; [easy|]. now rewrite H2.
Qed.

(** ** What programs mean, put together *)
Lemma fines_app : forall a s b, fines TrSpec.add false s (a ++ b) <-> fines TrSpec.add false s a /\ fines TrSpec.add false (send s a) b.
Proof. induction a as [|o a IH]; intros s b; cbn; [tauto|]. rewrite IH. tauto. Qed.
Lemma srun_app : forall a s b, srun TrSpec.add s (a ++ b) = srun TrSpec.add s a ++ srun TrSpec.add (send s a) b.
Proof. induction a as [|o a IH]; intros s b; [reflexivity|]. cbn [app srun send]. destruct (sstep TrSpec.add s o) as [s' r]. cbn [fst app]. now rewrite IH. Qed.
Lemma srun_length : forall a s, length (srun TrSpec.add s a) = length a.
Proof. induction a as [|o a IH]; intros s; [reflexivity|]. cbn [srun length]. destruct (sstep TrSpec.add s o). cbn [length]. now rewrite IH. Qed.
Lemma put_length s i d : (i < length (dicts s))%nat -> length (dicts (put s i d)) = length (dicts s).
Proof. intros L. unfold put. cbn [dicts]. rewrite app_length, firstn_length. cbn [length]. rewrite skipn_length. lia. Qed.
Lemma at_put s i d : (i < length (dicts s))%nat -> at_ (put s i d) i = d.
Proof. intros L. unfold at_, put. cbn [dicts]. rewrite app_nth2; rewrite firstn_length; [|lia]. now replace (i - Nat.min i (length (dicts s)))%nat with 0%nat by lia. Qed.
Lemma put_at s i : (i < length (dicts s))%nat -> put s i (at_ s i) = s.
Proof.
  intros L. destruct s as [ds f]. unfold put, at_. cbn [dicts saved] in *. f_equal. revert i L. induction ds as [|d ds IH]; intros [|i] L; cbn in L; try lia; [reflexivity|]. cbn. f_equal. apply IH. lia.
Qed.
Lemma send_saved name : forall ops s, Forall (keeps name) ops -> saved (send s ops) name = saved s name.
Proof.
  induction ops as [|o ops IH]; intros s F; [reflexivity|]. inversion F as [|? ? K F']; subst. cbn [send]. rewrite IH by easy. destruct o as [dic|i x v|i x pos|i x pos|i n|i n]; cbn [sstep keeps] in *.
  - reflexivity.
  - reflexivity.
  - now destruct (last (matches (at_ s i) (rest x pos)) (0, -1)).
  - reflexivity.
  - cbn [fst saved]. destruct (Z.eqb_spec name n); [congruence|reflexivity].
  - destruct (saved s n); reflexivity.
Qed.
(** a file nobody loads does not matter *)
Definition like (name : Z) (s s' : sstate) : Prop := dicts s = dicts s' /\ forall n, n <> name -> saved s n = saved s' n.
Lemma like_step name s s' o : avoids name o -> like name s s' ->
  (fine TrSpec.add false s o <-> fine TrSpec.add false s' o) /\ snd (sstep TrSpec.add s o) = snd (sstep TrSpec.add s' o) /\ like name (fst (sstep TrSpec.add s o)) (fst (sstep TrSpec.add s' o)).
Proof.
  intros A [D F]. destruct s as [ds f], s' as [ds' f']. cbn [dicts saved] in *. subst ds'. destruct o as [dic|i x v|i x pos|i x pos|i n|i n]; cbn [avoids] in A; cbn [fine sstep dicts saved at_]; unfold at_, put; cbn [dicts saved].
  - split; [tauto|]. split; [reflexivity|]. split; [reflexivity|exact F].
  - split; [tauto|]. split; [reflexivity|]. split; [reflexivity|exact F].
  - destruct (last (matches (nth i ds none) (rest x pos)) (0, -1)). split; [tauto|]. split; [reflexivity|]. split; [reflexivity|exact F].
  - split; [tauto|]. split; [reflexivity|]. split; [reflexivity|exact F].
  - split; [tauto|]. split; [reflexivity|]. split; [reflexivity|]. cbn. intros m NM. destruct (m =? n); [reflexivity|now apply F].
  - split; [tauto|]. rewrite <- (F n A). destruct (f n); (split; [reflexivity|]); (split; [reflexivity|]); cbn; exact F.
Qed.
Lemma like_run name : forall ops s s', Forall (avoids name) ops -> like name s s' ->
  (fines TrSpec.add false s ops <-> fines TrSpec.add false s' ops) /\ srun TrSpec.add s ops = srun TrSpec.add s' ops.
Proof.
  induction ops as [|o ops IH]; intros s s' F L; [easy|]. inversion F as [|? ? A F']; subst. destruct (like_step name s s' o A L) as (E1 & E2 & L'). cbn [fines srun].
  destruct (sstep TrSpec.add s o) as [s1 r1], (sstep TrSpec.add s' o) as [s2 r2]. cbn [fst snd] in *. subst r2. destruct (IH s1 s2 F' L') as [H1 H2]. split; [rewrite E1, H1; tauto|now rewrite H2].
Qed.

Lemma saved_loaded pre i name mid j x pos : Forall (keeps name) mid ->
  fines TrSpec.add false sstart (pre ++ Save i name :: mid ++ [Load j name; Search j x pos]) ->
  exists l l' r, run start (pre ++ Save i name :: mid ++ [Load j name; Search j x pos]) = Ok (l ++ [r]) /\ run start (pre ++ [Search i x pos]) = Ok (l' ++ [r]).
Proof.
  intros K F. rewrite (run_ok _ _ _ start_match F). apply fines_app in F as [F1 F2]. set (s := send sstart pre) in *. cbn [fines] in F2. destruct F2 as [FS F2]. cbn [sstep fst fine] in *. set (s1 := Sp (dicts s) _) in *.
  apply fines_app in F2 as [F2 F3]. set (s2 := send s1 mid) in *.
  assert (ES : saved s2 name = Some (at_ s i)) by (unfold s2; rewrite send_saved by exact K; cbn; now rewrite Z.eqb_refl).
  cbn [fines fine sstep] in F3. destruct F3 as (LJ & F3 & _). rewrite ES in F3. cbn [fst] in F3. rewrite at_put in F3 by exact LJ. destruct F3 as [_ SE].
  assert (F' : fines TrSpec.add false sstart (pre ++ [Search i x pos])) by (apply fines_app; split; [exact F1|]; cbn [fines fine]; easy).
  rewrite (run_ok _ _ _ start_match F'). rewrite !srun_app. fold s. cbn [srun sstep]. fold s1. rewrite srun_app. fold s2. cbn [srun sstep]. rewrite ES, at_put by exact LJ. destruct (last (matches (at_ s i) (rest x pos)) (0, -1)) as [n v].
  exists (srun TrSpec.add sstart pre ++ Code 0 :: srun TrSpec.add s1 mid ++ [Code 0]), (srun TrSpec.add sstart pre), (Pair n v). split; [|reflexivity]. f_equal. rewrite <- app_assoc. cbn [app]. rewrite <- app_assoc. reflexivity.
Qed.
Lemma through_file a i name b : Forall (avoids name) b -> (i < length (dicts (send sstart a)))%nat -> fines TrSpec.add false sstart (a ++ b) ->
  exists r1 r2, length r1 = length a /\ run start (a ++ b) = Ok (r1 ++ r2) /\ run start (a ++ [Save i name; Load i name] ++ b) = Ok (r1 ++ [Code 0; Code 0] ++ r2).
Proof.
  intros A LI F. pose proof F as F0. apply fines_app in F as [F1 F2]. set (s := send sstart a) in *. set (s' := Sp (dicts s) (fun n => if n =? name then Some (at_ s i) else saved s n)).
  assert (E : fst (sstep TrSpec.add s' (Load i name)) = s') by (cbn [sstep]; unfold s'; cbn [saved]; rewrite Z.eqb_refl; cbn [fst]; apply (put_at s' i); exact LI).
  assert (E2 : snd (sstep TrSpec.add s' (Load i name)) = Code 0) by (cbn [sstep]; unfold s'; cbn [saved]; now rewrite Z.eqb_refl).
  assert (E3 : sstep TrSpec.add s' (Load i name) = (s', Code 0)) by (destruct (sstep TrSpec.add s' (Load i name)); cbn [fst snd] in *; now subst).
  destruct (like_run name b s s' A) as [L1 L2]; [split; [reflexivity|intros n N; cbn; destruct (Z.eqb_spec n name); easy]|].
  assert (F' : fines TrSpec.add false sstart (a ++ [Save i name; Load i name] ++ b)).
  { apply fines_app. split; [exact F1|]. fold s. cbn [app fines fine]. split; [exact LI|]. change (fst (sstep TrSpec.add s (Save i name))) with s'. split; [exact LI|]. rewrite E. now apply L1. }
  exists (srun TrSpec.add sstart a), (srun TrSpec.add s b). split; [apply srun_length|]. rewrite (run_ok _ _ _ start_match F0), (run_ok _ _ _ start_match F'). rewrite !srun_app. split; [reflexivity|]. f_equal. f_equal. cbn [send app]. fold s.
  cbn [srun]. change (sstep TrSpec.add s (Save i name)) with (s', Code 0). cbn [fst]. rewrite E3. cbn [fst app]. now rewrite L2.
Qed.

(** ** Searches, declaratively *)
Lemma matches_in d x n v : In (n, v) (matches d x) <-> exists m, n = Z.of_nat m /\ (1 <= m <= length (chars x))%nat /\ d (coded (prefix m x)) = Some v.
Proof.
  unfold matches. rewrite in_flat_map. split.
  - intros (m & IM & I). apply in_seq in IM. destruct (d (coded (prefix m x))) as [w|] eqn:D; [|easy]. destruct I as [I|[]]. injection I as <- <-. exists m. repeat split; try lia. exact D.
  - intros (m & -> & L & D). exists m. split; [apply in_seq; lia|]. rewrite D. now left.
Qed.
Definition rising (a b : Z * Z) : Prop := fst a < fst b.
Lemma matches_sorted d x : StronglySorted rising (matches d x).
Proof.
  unfold matches. generalize 1%nat. induction (length (chars x)) as [|m IH]; intros k; cbn [seq flat_map]; [constructor|].
  assert (F : forall a, In a (flat_map (fun n => match d (coded (prefix n x)) with Some v => [(Z.of_nat n, v)] | None => [] end) (seq (S k) m)) -> Z.of_nat k < fst a).
  { intros a I. apply in_flat_map in I as (q & IQ & I). apply in_seq in IQ. destruct (d (coded (prefix q x))); [|easy]. destruct I as [<-|[]]. cbn. lia. }
  destruct (d (coded (prefix k x))) as [v|]; cbn [app]; [|apply IH]. constructor; [apply IH|]. apply Forall_forall. exact F.
Qed.
Lemma last_greatest : forall l a, StronglySorted rising l -> l <> [] -> In (last l a) l /\ forall b, In b l -> fst b <= fst (last l a).
Proof.
  induction l as [|x l IH]; intros a SS NE; [easy|]. inversion SS as [|? ? SS' F]; subst. destruct l as [|y l].
  - split; [now left|]. intros b [<-|[]]. cbn. lia.
  - destruct (IH a SS' ltac:(easy)) as [H1 H2]. split; [right; exact H1|]. intros b [<-|I]; [|now apply H2]. rewrite Forall_forall in F. specialize (F _ H1). unfold rising in F. cbn [last] in *. lia.
Qed.
Lemma longest_prefix d x n v : last (matches d x) (0, -1) = (n, v) ->
  (n = 0 /\ v = -1 /\ forall m, (1 <= m <= length (chars x))%nat -> d (coded (prefix m x)) = None) \/
  (exists m, n = Z.of_nat m /\ (1 <= m <= length (chars x))%nat /\ d (coded (prefix m x)) = Some v /\
    forall m', (m < m' <= length (chars x))%nat -> d (coded (prefix m' x)) = None).
Proof.
  intros E. destruct (matches d x) as [|a l] eqn:EM.
  - left. cbn in E. injection E as <- <-. split; [reflexivity|]. split; [reflexivity|]. intros m L. destruct (d (coded (prefix m x))) as [w|] eqn:D; [|reflexivity]. assert (I : In (Z.of_nat m, w) (matches d x)) by (apply matches_in; exists m; easy). rewrite EM in I. easy.
  - right. rewrite <- EM in E. destruct (last_greatest (matches d x) (0, -1) (matches_sorted d x)) as [I G]; [rewrite EM; easy|]. rewrite E in I, G. apply matches_in in I as (m & -> & L & D). exists m. split; [reflexivity|]. split; [exact L|]. split; [exact D|].
    intros m' L'. destruct (d (coded (prefix m' x))) as [w|] eqn:D'; [|reflexivity]. assert (I : In (Z.of_nat m', w) (matches d x)) by (apply matches_in; exists m'; repeat split; try lia; exact D'). apply G in I. cbn in I. lia.
Qed.

(** More than 64 answers. *)
Lemma many_run : forall ops s p o, Match s p -> fines TrSpec.add false p ops -> (forall s', Match s' (send p ops) -> step s' o = UB) -> run s (ops ++ [o]) = UB.
Proof.
  induction ops as [|a ops IH]; intros s p o M F H; cbn [app run].
  - rewrite (H s M). reflexivity.
  - destruct F as [F FS]. destruct (step_ok s p a M F) as (s' & -> & M'). cbn [bind]. rewrite (IH s' _ o M' FS); [reflexivity|]. exact H.
Qed.
Lemma many_ok t d w : Holds t d -> Forall (fun c => 0 <= c < 256) w -> (forall k r, w = k ++ 0 :: r -> d k = None) -> (64 < length (matches d (Bytes w)))%nat ->
  prefix_search t w = UB /\ prefix_search_all t w = UB.
Proof.
  intros H W N L. rewrite matches_bytes in L. unfold prefix_search, prefix_search_all. rewrite (search_holds t d w H W N). cbn [bind]. unfold results. destruct (Nat.ltb_spec 64 (length (found d [] 0 w))); [|lia]. easy.
Qed.
