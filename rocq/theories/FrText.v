From Verif Require Import Base Utf8Model FrModel FrSpec FrProofs.
Local Open Scope Z_scope.

Lemma enc_cut j cs : enc cs = enc (firstn j cs) ++ enc (skipn j cs).
Proof. rewrite <- enc_app, firstn_skipn. easy. Qed.
Lemma firstn_firstn_app (j n : nat) (cs : list Z) : firstn j cs ++ firstn n (skipn j cs) = firstn (j + n) cs.
Proof.
  revert cs. induction j as [|j IH]; intros cs; [easy|]. destruct cs as [|c cs]; [cbn; now rewrite firstn_nil|]. cbn. now rewrite IH.
Qed.
Lemma skipn_add {A} (n m : nat) (l : list A) : skipn n (skipn m l) = skipn (m + n) l.
Proof. revert l. induction m as [|m IH]; intros l; [easy|]. destruct l; [now rewrite !skipn_nil|]. cbn. apply IH. Qed.

Lemma read_chars_ok : forall fuel r u cs count, sm r (u ++ enc cs) -> Forall sc cs -> 0 < count -> (length (u ++ enc cs) < fuel)%nat ->
  exists r', read_chars fuel r count (len u) = Ok (r', u ++ enc (firstn (Z.to_nat count) cs)) /\ sm2 r' (enc (skipn (Z.to_nat count) cs)).
Proof.
  induction fuel as [|fuel IH]; intros r u cs count H Hcs Hc Hf; [lia|]. cbn [read_chars].
  rewrite (proj2 (Z.leb_gt count 0)) by lia. set (k := if len u <? count then count else len u).
  assert (Hk : 0 < k /\ count <= k /\ len u <= k /\ (k = count \/ k = len u)).
  { unfold k. pose proof (len_pos u). destruct (Z.ltb_spec (len u) count); lia. }
  clearbody k. destruct Hk as (K0 & K1 & K2 & K3).
  destruct (near_take r (u ++ enc cs) k H K0) as (r1 & E1 & S1). rewrite E1. cbn [bind].
  set (n := Z.to_nat k) in *. assert (Hn : (length u <= n)%nat) by (unfold len, n in *; lia).
  assert (Et : firstn n (u ++ enc cs) = u ++ firstn (n - length u) (enc cs)) by (rewrite firstn_app, firstn_all2 by lia; easy).
  assert (Es : skipn n (u ++ enc cs) = skipn (n - length u) (enc cs)) by (rewrite skipn_app, skipn_all2 by lia; easy).
  rewrite Et, Es in *. clear Et Es.
  set (m := Nat.min (n - length u) (length (enc cs))).
  assert (Em : firstn (n - length u) (enc cs) = firstn m (enc cs)).
  { unfold m. destruct (Nat.le_ge_cases (n - length u) (length (enc cs))) as [L|L]; [now rewrite Nat.min_l|].
    rewrite Nat.min_r, firstn_all, firstn_all2 by lia. easy. }
  assert (Es : skipn (n - length u) (enc cs) = skipn m (enc cs)).
  { unfold m. destruct (Nat.le_ge_cases (n - length u) (length (enc cs))) as [L|L]; [now rewrite Nat.min_l|].
    rewrite Nat.min_r, skipn_all, skipn_all2 by lia. easy. }
  rewrite Em, Es in *. assert (Hm : (m <= length (enc cs))%nat) by (unfold m; lia). assert (Hmn : (m <= n - length u)%nat) by (unfold m; lia).
  assert (Lm : length (firstn m (enc cs)) = m) by (rewrite firstn_length; lia).
  rewrite to_len, skipn_app, skipn_all, Nat.sub_diag. cbn [app skipn]. rewrite len_app. replace (len u + len (firstn m (enc cs)) - len u) with (Z.of_nat m) by (unfold len; lia).
  destruct (count_ok cs m (length (u ++ firstn m (enc cs))) 0 0 Hcs Hm) as (j & limit & size & E & J1 & J2 & J3); [rewrite app_length; lia|].
  rewrite E. set (more := if 0 <? limit then size - limit else 0) in *. cbv zeta in J3. destruct J3 as [J3 J4]. clearbody more. rewrite Z.add_0_l. clear E.
  set (e := enc (firstn j cs)) in *. set (f := enc (skipn j cs)) in *.
  assert (Ef : enc cs = e ++ f) by apply enc_cut.
  assert (E1' : firstn m (enc cs) = firstn m e).
  { rewrite Ef, firstn_app. replace (m - length e)%nat with O by lia. cbn. now rewrite app_nil_r. }
  assert (E2' : skipn m (enc cs) = skipn m e ++ f).
  { rewrite Ef, skipn_app. replace (m - length e)%nat with O by lia. easy. }
  assert (Hj : Z.of_nat j <= count).
  { destruct K3 as [->| ->]; [unfold n in *; lia|]. unfold n, len in *. lia. }
  destruct (last_line r1) eqn:EL.
  - assert (Z0 : skipn m (enc cs) = []) by now apply (sm2_last r1).
    assert (Hall : (length (enc cs) <= m)%nat) by (apply (f_equal (@length Z)) in Z0; rewrite skipn_length in Z0; cbn in Z0; lia).
    assert (Hcnt : (length cs <= Z.to_nat count)%nat).
    { pose proof (enc_len cs). unfold len, n in *. lia. }
    exists r1. rewrite (firstn_all2 (enc cs)) by lia. rewrite (firstn_all2 cs), (skipn_all2 cs) by lia. split; [easy|]. now rewrite Z0 in S1.
  - assert (Hne : skipn m (enc cs) <> []) by now apply (sm2_more r1).
    assert (Hlt : (m < length (enc cs))%nat) by (destruct (Nat.lt_ge_cases m (length (enc cs))); [easy|]; exfalso; apply Hne, skipn_all2; lia).
    assert (Hmk : m = (n - length u)%nat) by (unfold m in *; lia).
    destruct ((count - Z.of_nat j =? 0) && (0 <? more)) eqn:Eb.
    + apply andb_prop in Eb as [B1 B2]. apply Z.eqb_eq in B1. apply Z.ltb_lt in B2.
      destruct (near_take r1 (skipn m (enc cs)) more) as (r2 & E2 & S2); [now apply sm2_sm|easy|]. rewrite E2. cbn [bind].
      exists r2. replace (Z.to_nat count) with j by lia. fold e f.
      assert (Lk : length (skipn m e) = Z.to_nat more) by (rewrite skipn_length; lia).
      rewrite E2' in *. rewrite firstn_app, (firstn_all2 (skipn m e)) by lia. rewrite Lk, Nat.sub_diag. cbn [firstn]. rewrite app_nil_r, E1', <- app_assoc, firstn_skipn.
      split; [easy|]. rewrite skipn_app, (skipn_all2 (skipn m e)), Lk, Nat.sub_diag in S2 by lia. easy.
    + destruct (Z.eq_dec count (Z.of_nat j)) as [Ej|Ej].
      * rewrite Ej, Z.sub_diag in Eb |- *. cbn [Z.eqb andb] in Eb. apply Z.ltb_ge in Eb. assert (more = 0) as -> by lia.
        assert (Hfu : (0 < fuel)%nat) by (rewrite app_length in Hf; lia). destruct fuel as [|fuel]; [lia|]. cbn [read_chars Z.leb Z.compare bind].
        exists r1. rewrite app_nil_r, Nat2Z.id. fold e f. rewrite E1', firstn_all2 by lia. split; [easy|].
        rewrite E2', skipn_all2 in S1 by lia. easy.
      * assert (Lk : len (skipn m e) = more) by (unfold len; rewrite skipn_length; lia).
        destruct (IH r1 (skipn m e) (skipn j cs) (count - Z.of_nat j)) as (r2 & E2 & S2).
        -- fold f. rewrite <- E2'. now apply sm2_sm.
        -- rewrite Forall_forall in *. intros x Hx. apply Hcs. rewrite <- (firstn_skipn j cs). apply in_or_app. now right.
        -- lia.
        -- fold f. rewrite <- E2', skipn_length. rewrite app_length in Hf. lia.
        -- rewrite Lk in E2. rewrite E2. cbn [bind]. exists r2. rewrite E1'. split.
           ++ do 2 f_equal. rewrite <- !app_assoc. f_equal. rewrite app_assoc, firstn_skipn. unfold e. rewrite <- enc_app, firstn_firstn_app. do 2 f_equal. lia.
           ++ rewrite skipn_add in S2. now replace (j + Z.to_nat (count - Z.of_nat j))%nat with (Z.to_nat count) in S2 by lia.
Qed.
Lemma sm_length r s : sm r s -> (length s <= length (rest r) + Z.to_nat (lim r - pos r))%nat.
Proof.
  intros [[(_ & _ & _ & _ & w & (_ & _ & W & _) & ->) _]|(-> & _)]; [|cbn; lia]. rewrite app_length. unfold len in W. lia.
Qed.
(** ReadUnicode *)
Lemma read_unicode_ok r cs n : sm r (enc cs) -> Forall sc cs -> 0 < n ->
  exists r', read_unicode r n = Ok (r', firstn (Z.to_nat n) cs) /\ sm2 r' (enc (skipn (Z.to_nat n) cs)).
Proof.
  intros H Hcs Hn. unfold read_unicode. pose proof (sm_length r _ H) as L.
  destruct (read_chars_ok (S (length (rest r) + Z.to_nat (lim r - pos r))) r [] cs n) as (r' & E & S2); try easy; [cbn [app]; lia|].
  change (len []) with 0 in E. rewrite E. cbn [bind app]. unfold enc at 1. rewrite decode_utf8.
  - exists r'. easy.
  - rewrite Forall_forall in *. intros x Hx. apply Hcs. rewrite <- (firstn_skipn (Z.to_nat n) cs). apply in_or_app. now left.
Qed.

(** ** Bytes and characters *)
Lemma valid_sc cs : valid false cs -> Forall sc cs. Proof. easy. Qed.
Lemma lines_pre : forall u t, ~ In 10 u -> u <> [] -> lines (u ++ t) = match lines t with [] => [u] | l :: ls => (u ++ l) :: ls end.
Proof.
  induction u as [|x u IH]; intros t Hu Hn; [easy|]. cbn [app lines].
  destruct (x =? 10) eqn:E; [apply Z.eqb_eq in E; subst; exfalso; apply Hu; now left|].
  destruct u as [|y u].
  - cbn [app]. now destruct (lines t).
  - rewrite IH; [|intros H; apply Hu; now right|easy]. now destruct (lines t).
Qed.
Lemma lines_enc : forall cs, Forall sc cs -> lines (enc cs) = map enc (lines cs).
Proof.
  induction 1 as [|c cs Hc H IH]; [easy|]. change (enc (c :: cs)) with (utf8 c ++ enc cs). cbn [lines].
  destruct (Z.eqb_spec c 10) as [->|Hn].
  - cbn. now rewrite IH.
  - rewrite lines_pre, IH.
    + destruct (lines cs) as [|l ls]; [|easy]. cbn. now rewrite app_nil_r.
    + intros Hi. now apply Hn, utf8_newline.
    + intros E. pose proof (utf8_ne c) as N. now rewrite E in N.
Qed.
Lemma lines_file b cs : valid b cs -> lines (file b cs) = map (file b) (lines cs).
Proof. destruct b; intros H; cbn; [symmetry; apply map_id|now apply lines_enc]. Qed.
Lemma file_app b x y : file b (x ++ y) = file b x ++ file b y.
Proof. destruct b; [easy|]. apply enc_app. Qed.
Lemma file_concat b ls : concat (map (file b) ls) = file b (concat ls).
Proof. induction ls as [|l ls IH]; [now destruct b|]. cbn [map concat]. rewrite file_app. now rewrite IH. Qed.
Lemma file_nil b cs : file b cs = [] -> cs = [].
Proof. destruct b; [easy|]. destruct cs as [|c cs]; [easy|]. cbn. intros E. apply app_eq_nil in E as [E _]. pose proof (utf8_ne c) as N. now rewrite E in N. Qed.
Lemma valid_nil b : valid b []. Proof. unfold valid. apply Forall_nil. Qed.
Lemma valid_app b x y : valid b (x ++ y) <-> valid b x /\ valid b y. Proof. apply Forall_app. Qed.
Lemma valid_lines b cs : valid b cs -> Forall (valid b) (lines cs).
Proof.
  rewrite <- (concat_lines cs) at 1. induction (lines cs) as [|l ls IH]; [constructor|]. cbn [concat]. intros H. apply valid_app in H as [H1 H2]. constructor; auto.
Qed.
Lemma shown_file b cs : valid b cs -> shown b (file b cs) = Ok cs.
Proof. destruct b; intros H; [easy|]. cbn. now apply decode_utf8. Qed.
Lemma showns_file b ls : Forall (valid b) ls -> showns b (map (file b) ls) = Ok ls.
Proof. induction 1 as [|l ls H _ IH]; [easy|]. cbn [map showns]. rewrite shown_file by easy. cbn [bind]. now rewrite IH. Qed.
Lemma hd_lines_file b cs : valid b cs -> hd [] (lines (file b cs)) = file b (hd [] (lines cs)).
Proof. intros H. rewrite lines_file by easy. destruct (lines cs); [now destruct b|easy]. Qed.
Lemma tl_lines_file b cs : valid b cs -> concat (tl (lines (file b cs))) = file b (concat (tl (lines cs))).
Proof. intros H. rewrite lines_file by easy. rewrite <- file_concat. now destruct (lines cs). Qed.
Lemma valid_hd b cs : valid b cs -> valid b (hd [] (lines cs)).
Proof. intros H. apply valid_lines in H. destruct (lines cs); [constructor|]. now inversion H. Qed.
Lemma valid_tl b cs : valid b cs -> valid b (concat (tl (lines cs))).
Proof.
  intros H. rewrite <- (concat_lines cs) in H. destruct (lines cs) as [|l ls]; [constructor|]. cbn [concat tl] in *. now apply valid_app in H as [_ H].
Qed.
Lemma terminated_suffix a b : terminated (a ++ b) -> terminated b.
Proof.
  intros [H|(t & H)]; [apply app_eq_nil in H as [_ ->]; now left|].
  destruct b as [|x b _] using rev_ind; [now left|]. right. exists b. rewrite app_assoc in H. apply app_inj_tail in H as [_ ->]. easy.
Qed.
Lemma terminated_file b cs : terminated cs -> terminated (file b cs).
Proof. intros [->|(t & ->)]; [destruct b; now left|]. right. exists (file b t). rewrite file_app. now destruct b. Qed.
Lemma st_length T r s : st T r s -> (length (lines s) <= length (rest r) + Z.to_nat (lim r - pos r))%nat.
Proof.
  assert (G : forall s, (length (lines s) <= length s)%nat).
  { clear. induction s as [|c s IH]; [easy|]. cbn [lines length]. destruct (c =? 10); cbn [length]; [lia|]. destruct (lines s); cbn [length] in *; lia. }
  intros [[(_ & _ & _ & _ & w & (_ & _ & W & _) & ->) _]|(-> & _)]; [|cbn; lia].
  specialize (G (w ++ rest r)). rewrite app_length in G. unfold len in W. lia.
Qed.

(** ** Lines of a file of any size *)
Definition by_line (binary : bool) (T : Prop) (o : op) : Prop :=
  o = ReadLine \/ o = ReadLines \/ (binary = true /\ T /\ exists n, o = Read n /\ n < 0).
Lemma run_lines b T : forall ops r cs, st T r (file b cs) -> valid b cs -> (T -> terminated (file b cs)) -> Forall (by_line b T) ops ->
  run b r ops = Ok (pyrun cs ops).
Proof.
  induction ops as [|o ops IH]; intros r cs H V HT Ho; [easy|]. inversion Ho as [|? ? Ho1 Ho2]; subst. cbn [run pyrun].
  destruct Ho1 as [->|[->|(-> & t & n & -> & Hn)]]; cbn [step pystep].
  - destruct (string_ok T r _ H HT) as (r' & E & S'). rewrite E. cbn [bind]. rewrite hd_lines_file, shown_file by (auto using valid_hd). cbn [bind].
    rewrite (IH r' (concat (tl (lines cs)))); try easy; [now rewrite <- tl_lines_file|now apply valid_tl|].
    intros t. rewrite <- tl_lines_file by easy. now apply terminated_tail, HT.
  - destruct (read_lines_ok T (all r) r _ H HT) as (r' & E & S' & D'); [apply st_length in H; unfold all; lia|]. rewrite E. cbn [bind].
    rewrite lines_file, showns_file by (auto using valid_lines). cbn [bind]. rewrite (IH r' []); [easy| |apply valid_nil| |easy].
    + right. now destruct b.
    + now destruct b; left.
  - cbn in H. destruct (read_rest_ok T r cs n t H Hn) as (r' & E & D). rewrite E. cbn [bind]. rewrite (proj2 (Z.ltb_lt n 0)) by lia.
    rewrite (IH r' []); [easy| |apply valid_nil|now left|easy]. right. repeat split; try easy; apply D.
Qed.
Lemma opened_held size s : 1 <= size -> sound size 0 0 (line_lengths s) -> held (opened size true s) s.
Proof.
  intros Hs Hl. split; [|now right]. repeat split; cbn; try lia. exists []. split; [|easy]. repeat split; cbn; try lia. apply seg_nil.
Qed.
Lemma universal_id s : no_cr s -> universal s = s.
Proof.
  induction s as [|c s IH]; intros H; [easy|]. cbn [universal]. destruct (Z.eqb_spec c 13) as [->|_]; [exfalso; apply H; now left|].
  f_equal. apply IH. intros Hi. apply H. now right.
Qed.

(** ** Any program over a file that fits into the buffer *)
Definition inv (T E : Prop) (r : reader) (s : list Z) : Prop :=
  (at_ r s /\ rest r = [] /\ (E -> s <> [])) \/
  (at_ r s /\ held r s /\ pos r = lim r /\ len s <= cap r /\ (E -> s <> [] /\ ~ single s)) \/
  (s = [] /\ ended r /\ (T -> done r)).
Lemma inv_st T E r s : inv T E r s -> st T r s.
Proof. intros [(A & B & _)|[(_ & A & _)|A]]; [left; split; [easy|now left]|now left|now right]. Qed.
Lemma inv_sm (T : Prop) E r s : T -> inv T E r s -> sm r s.
Proof. intros t [(A & B & _)|[(A & _ & B & C & _)|(-> & _ & A)]]; [left; split; [easy|now left]|left; split; [easy|now right]|right; auto]. Qed.
Lemma sm2_inv T E r s : sm2 r s -> inv T E r s.
Proof. intros [(A & B & C)|(-> & D)]; [now left|right; right]. repeat split; try easy; apply D. Qed.
Lemma tail_nil s : In 10 s -> concat (tl (lines s)) = [] -> single s.
Proof.
  intros Hi. destruct (split_line s) as [(a & b & -> & Ha)|Hn]; [|easy]. rewrite lines_cut by easy. cbn [tl]. rewrite concat_lines. intros ->. now exists a.
Qed.
Lemma inv_line T E r s : inv T E r s -> (T -> terminated s) ->
  exists r', read_line_string r = Ok (r', hd [] (lines s)) /\ inv T E r' (concat (tl (lines s))).
Proof.
  intros I HT. destruct (inv_st _ _ _ _ I) as [H|(-> & En & D)].
  - unfold read_line_string. destruct (read_line_held r s H) as [(-> & r' & E' & D)|(Hs & r' & p & E' & Et & C)].
    + exists r'. rewrite E'. cbn. split; [easy|]. right. right. repeat split; try easy; apply D.
    + exists r'. rewrite E'. cbn [bind]. rewrite Et. split; [easy|].
      destruct C as [(C1 & C2 & C3 & C4)|(C1 & C2 & C3)].
      * left. split; [apply C1|]. destruct I as [(I1 & I2 & I3)|[(I1 & I2 & I3 & I4 & I5)|(I1 & _)]]; [| |easy].
        -- split; [apply C3; now left|]. intros _. now apply C2.
        -- split; [apply C3; now right|]. intros e Hz. apply (proj2 (I5 e)). now apply tail_nil.
      * right. right. split; [easy|]. split; [easy|]. intros t. now apply C3, terminated_in; [apply HT|].
  - unfold read_line_string. rewrite ended_line by easy. exists r. cbn. split; [easy|]. right. right. easy.
Qed.
Lemma each_inv T (E : Prop) : E -> forall fuel r s, inv T E r s -> (T -> terminated s) -> (length (lines s) < fuel)%nat ->
  exists r', each fuel r = Ok (r', lines s) /\ ended r' /\ (T -> done r').
Proof.
  intros e. induction fuel as [|fuel IH]; intros r s I HT Hf; [lia|]. cbn [each].
  destruct (last_line r) eqn:EL.
  - destruct I as [((A & _) & _)|[((A & _) & _)|(-> & I2 & I3)]]; [congruence|congruence|]. exists r. easy.
  - assert (Hs : s <> []).
    { destruct I as [(_ & _ & I)|[(_ & _ & _ & _ & I)|(_ & (I & _) & _)]]; [now apply I|now apply I|congruence]. }
    destruct (inv_line T E r s I HT) as (r1 & E1 & I1). rewrite E1. cbn [bind].
    destruct (IH r1 (concat (tl (lines s)))) as (r2 & E2 & D2); [easy|intros t; now apply terminated_tail, HT|rewrite (lines_cons s Hs) in Hf; cbn in Hf; lia|].
    rewrite E2. cbn [bind]. exists r2. now rewrite <- lines_cons.
Qed.
Definition fit (binary : bool) (T E : Prop) (o : op) : Prop :=
  match o with ForLines => E | Read n => T /\ (binary = false -> 0 <= n) | _ => True end.
Lemma valid_skip b n cs : valid b cs -> valid b (skipn n cs).
Proof. intros H. rewrite <- (firstn_skipn n cs) in H. now apply valid_app in H as [_ H]. Qed.
Lemma run_small b T E : forall ops r cs, inv T E r (file b cs) -> valid b cs -> (T -> terminated (file b cs)) -> Forall (fit b T E) ops ->
  run b r ops = Ok (pyrun cs ops).
Proof.
  induction ops as [|o ops IH]; intros r cs I V HT Ho; [easy|]. inversion Ho as [|? ? Ho1 Ho2]; subst. cbn [run pyrun].
  assert (Hend : forall r', ended r' /\ (T -> done r') -> run b r' ops = Ok (pyrun [] ops)).
  { intros r' [D1 D2]. apply IH; [|apply valid_nil|now destruct b; left|easy]. right. right. now destruct b. }
  destruct o as [| | |n]; cbn [step pystep].
  - destruct (inv_line T E r _ I HT) as (r' & E' & S'). rewrite E'. cbn [bind]. rewrite hd_lines_file, shown_file by (auto using valid_hd). cbn [bind].
    rewrite (IH r' (concat (tl (lines cs)))); try easy; [now rewrite <- tl_lines_file|now apply valid_tl|].
    intros t. rewrite <- tl_lines_file by easy. now apply terminated_tail, HT.
  - pose proof (inv_st _ _ _ _ I) as H. destruct (read_lines_ok T (all r) r _ H HT) as (r' & E' & S'); [apply st_length in H; unfold all; lia|]. rewrite E'. cbn [bind].
    rewrite lines_file, showns_file by (auto using valid_lines). cbn [bind]. now rewrite Hend.
  - pose proof (inv_st _ _ _ _ I) as H. destruct (each_inv T E Ho1 (all r) r _ I HT) as (r' & E' & S'); [apply st_length in H; unfold all; lia|]. rewrite E'. cbn [bind].
    rewrite lines_file, showns_file by (auto using valid_lines). cbn [bind]. now rewrite Hend.
  - destruct Ho1 as [t Hn]. destruct b.
    + destruct (Z.ltb_spec n 0) as [L|L].
      * destruct (read_rest_ok T r _ n t (inv_st _ _ _ _ I) L) as (r' & E' & D). rewrite E'. cbn [bind file]. rewrite Hend; [easy|split; [apply D|easy]].
      * destruct (Z.eq_dec n 0) as [->|Hz].
        -- destruct (near_read r _ 0 (inv_sm _ _ _ _ t I)) as (r' & E' & [(_ & ->)|[(_ & D & D')|(D & _)]]); [lia| | |lia]; rewrite E'; cbn [bind file Z.to_nat firstn skipn].
           ++ now rewrite (IH r cs).
           ++ rewrite (IH r' cs); try easy. cbn [Z.to_nat skipn] in D. left. split; [easy|]. split; [easy|].
              destruct I as [(_ & _ & I3)|[(_ & _ & _ & _ & I3)|(I3 & I4 & _)]]; [easy|intros e; now apply I3|].
              exfalso. cbn in I3. subst cs. destruct D as (D1 & _). destruct I4 as (I4 & _).
              unfold read_bytes in E'. cbn in E'. injection E' as E'. congruence.
        -- destruct (near_take r _ n (inv_sm _ _ _ _ t I)) as (r' & E' & D); [lia|]. rewrite E'. cbn [bind file] in *.
           rewrite (IH r' (skipn (Z.to_nat n) cs)); try easy; [now apply sm2_inv|now apply valid_skip|].
           intros _. apply (terminated_suffix (firstn (Z.to_nat n) cs)). cbn. rewrite firstn_skipn. now apply HT.
    + specialize (Hn eq_refl). rewrite (proj2 (Z.ltb_ge n 0)) by lia. destruct (Z.eq_dec n 0) as [->|Hz].
      * unfold read_unicode. cbn [read_chars Z.leb Z.compare bind]. change (utf8_decode []) with (@Ok (list Z) []). cbn [bind Z.to_nat firstn skipn].
        now rewrite (IH r cs).
      * destruct (read_unicode_ok r cs n (inv_sm _ _ _ _ t I)) as (r' & E' & D); [easy|lia|]. rewrite E'. cbn [bind].
        rewrite (IH r' (skipn (Z.to_nat n) cs)); try easy; [now apply sm2_inv|now apply valid_skip|].
        intros _. apply (terminated_suffix (file false (firstn (Z.to_nat n) cs))). rewrite <- file_app, firstn_skipn. now apply HT.
Qed.
Lemma single_file b cs : valid b cs -> single (file b cs) -> single cs.
Proof.
  intros V S. assert (N : cs <> []) by (intros ->; destruct S as ([|? ?] & S & _); now destruct b).
  assert (Hi : In 10 cs).
  { destruct b; [destruct S as (a & S & _); cbn in S; rewrite S; apply in_or_app; right; now left|].
    destruct S as (a & S & _). assert (H : In 10 (file false cs)) by (rewrite S; apply in_or_app; right; now left).
    cbn in H. apply in_flat_map in H as (c & H1 & H2). unfold valid in V. rewrite Forall_forall in V. assert (c = 10) as -> by (apply utf8_newline; [now apply V|easy]). easy. }
  apply tail_nil; [easy|]. apply (file_nil b). rewrite <- tl_lines_file by easy. destruct S as (a & -> & Ha). rewrite lines_cut by easy. easy.
Qed.
Lemma small_inv (T E : Prop) b size cs : 1 <= size -> len (file b cs) <= size -> valid b cs -> (E -> cs <> [] /\ ~ single cs) ->
  inv T E (opened size true (file b cs)) (file b cs).
Proof.
  intros Hs Hl V HE. pose proof (opened_held size _ Hs (small_sound size _ Hs Hl)) as H. right. left. split; [apply H|]. split; [easy|]. split; [easy|]. split; [easy|].
  intros e. destruct (HE e) as [H1 H2]. split; [intros Z0; now apply H1, (file_nil b)|intros S; now apply H2, (single_file b)].
Qed.
