(** Files that are not read as in Python *)
From Verif Require Import Base Utf8Model FrModel FrSpec FrProofs FrText.
Local Open Scope Z_scope.

(** ** The for loop *)
Lemma loop_empty b size : 1 <= size -> run b (opened size true []) [ForLines] = Ok [Texts [[]]].
Proof.
  intros Hs. destruct (read_line_held _ _ (opened_held size [] Hs I)) as [(_ & r2 & E3 & (D1 & _) & _)|(N & _)]; [|easy].
  cbn [run step]. change (all (opened size true [])) with 2%nat. cbn [each]. change (last_line (opened size true [])) with false. cbv iota.
  unfold read_line_string. rewrite E3. cbn [bind each]. rewrite D1. now destruct b.
Qed.
Lemma loop_single b size content : 1 <= size -> valid b content -> single content ->
  run b (opened size true (file b content)) [ForLines] = Ok [Texts [content; []]].
Proof.
  intros Hs V (a & -> & Ha). pose proof V as V'. apply valid_app in V' as [Va _].
  assert (Ea : lines (file b (a ++ [10])) = [file b (a ++ [10])]) by (rewrite lines_file, lines_cut by easy; easy).
  assert (Hb : file b (a ++ [10]) = file b a ++ [10]) by (rewrite file_app; now destruct b).
  assert (Hn : ~ In 10 (file b a)).
  { destruct b; [easy|]. intros H. cbn in H. apply in_flat_map in H as (c & H1 & H2). unfold valid in Va. rewrite Forall_forall in Va.
    apply Ha. assert (c = 10) as <- by (apply utf8_newline; [now apply Va|easy]). easy. }
  cbn [run step]. set (r := opened size true (file b (a ++ [10]))). unfold all. change (Z.to_nat (lim r - pos r)) with O. rewrite Nat.add_0_r.
  assert (A : at_ r ([] ++ rest r)).
  { repeat split; cbn; try lia. exists []. split; [|easy]. repeat split; cbn; try lia. apply seg_nil. }
  assert (W : window r []) by (repeat split; cbn; try lia; apply seg_nil).
  destruct (line_refill r [] A W) as [(C & _)|[(_ & C & _)|(a' & b' & r' & p & C1 & C2 & E1 & E2 & A' & F)]]; [easy| | |].
  - exfalso. cbn in C. rewrite Hb in C. now destruct (file b a).
  - exfalso. apply C. cbn. rewrite Hb. apply in_or_app. right. now left.
  - cbn [app] in C1. change (rest r) with (file b (a ++ [10])) in C1. rewrite Hb in C1.
    destruct (cut_same (file b a) [] a' b') as [<- <-]; [easy|easy|easy|].
    assert (H' : held r' []) by (split; [easy|]; now right).
    destruct (read_line_held r' [] H') as [(_ & r2 & E3 & (D1 & _) & _)|(N & _)]; [|easy].
    assert (L0 : last_line r' = false) by apply A'.
    cbn [each]. change (last_line r) with false. cbv iota. unfold read_line_string at 1. rewrite E1. cbn [bind]. rewrite E2. cbn [bind].
    assert (Hl : length (rest r) <> O). { cbn. rewrite Hb, app_length. cbn. lia. } destruct (length (rest r)) as [|f] eqn:Ef; [easy|].
    cbn [each]. rewrite L0. unfold read_line_string. rewrite E3. cbn [bind each]. rewrite D1. cbn [bind]. rewrite <- Hb.
    change [file b (a ++ [10]); []] with (map (file b) [a ++ [10]] ++ [[]]).
    replace (map (file b) [a ++ [10]] ++ [[]]) with (map (file b) [a ++ [10]; []]) by (now destruct b).
    rewrite showns_file; [easy|]. apply Forall_cons; [easy|]. apply Forall_cons; [apply valid_nil|apply Forall_nil].
Qed.

(** ** The steps of the reader, in full *)
Definition told (kp : bool) (a : list Z) : Z := if kp then len a + 1 else len a.
Lemma buffer_line_any r a b : window r (a ++ 10 :: b) -> ~ In 10 a -> ~ In 13 a ->
  line_from_buffer r = Ok (set_window r (pos r + len a + 1) (lim r), Some (Ptr (gen r) (pos r) (told (keep r) a))).
Proof.
  intros W Ha Hc. destruct (keep r) eqn:Hk; [now apply (buffer_line r a b)|].
  destruct W as (H0 & H1 & H2 & H3). unfold line_from_buffer. rewrite len_app, len_cons in H2.
  pose proof (len_pos a). pose proof (len_pos b).
  rewrite (proj2 (Z.eqb_neq _ _)) by lia.
  rewrite (find_found r b a); [|easy|easy|lia|rewrite len_app, len_cons; lia|unfold len in *; lia].
  cbn [bind]. rewrite (proj2 (Z.eqb_neq _ _)) by lia. rewrite Hk. cbn [negb andb].
  destruct (Z.ltb_spec (pos r) (pos r + len a)) as [L|L].
  - destruct a as [|x a _] using rev_ind; [rewrite len_nil in L; lia|]. assert (Lx : len (a ++ [x]) = len a + 1) by (rewrite len_app, len_cons, len_nil; lia).
    rewrite <- app_assoc in H3. apply seg_app in H3 as [_ H3]. cbn [app] in H3. apply seg_cons in H3 as [H3 _].
    rewrite (seg_copy r _ [x] 1); [| |lia|rewrite len_cons, len_nil; lia|easy].
    2:{ apply seg_cons. split; [|apply seg_nil]. now replace (pos r + len (a ++ [x]) - 1) with (pos r + len a) by lia. }
    cbn [bind hd andb]. destruct (Z.eqb_spec x 13) as [->|_]; [exfalso; apply Hc, in_or_app; right; now left|].
    unfold told. do 3 f_equal. f_equal. lia.
  - cbn [bind andb]. unfold told. do 3 f_equal. f_equal. lia.
Qed.
Lemma first_line size kp content a b : 1 <= size -> firstn (Z.to_nat size) content = a ++ 10 :: b -> ~ In 10 a -> ~ In 13 a ->
  read_line (opened size kp content) =
    Ok (R (skipn (Z.to_nat size) content) (store (fun _ => None) 0 (a ++ 10 :: b)) 0 size (len a + 1) (len (a ++ 10 :: b)) false kp,
        Some (Ptr 0 0 (told kp a))).
Proof.
  intros Hs E Ha Hc. assert (L0 : line_from_buffer (opened size kp content) = Ok (opened size kp content, None)) by reflexivity.
  unfold read_line. change (last_line (opened size kp content)) with false. cbv iota. rewrite L0. cbn [bind].
  change (0 <? pos (opened size kp content)) with false. cbv iota. cbn [bind refill]. unfold sys_read. cbn [opened rest cap lim dat]. rewrite Z.sub_0_r, E. cbn [gen pos last_line keep].
  pose proof (len_pos a). pose proof (len_pos b). assert (L : len (a ++ 10 :: b) = len a + (len b + 1)) by (rewrite len_app, len_cons; easy).
  rewrite (proj2 (Z.leb_gt _ 0)) by lia. unfold set_window at 1. cbn [dat rest gen cap pos lim last_line keep]. rewrite Z.add_0_l.
  rewrite (buffer_line_any _ a b); [|repeat split; cbn; try lia; [|apply seg_store]|easy|easy].
  - cbn [bind set_window pos rest dat gen cap lim last_line keep]. rewrite Z.add_0_l. easy.
  - assert (Hl : len (firstn (Z.to_nat size) content) <= size) by (unfold len; rewrite firstn_length; lia). rewrite E in Hl. lia.
Qed.
Lemma edge_line r a : window r (a ++ [10]) -> last_line r = false -> ~ In 10 a -> ~ In 13 a -> cap r <> told (keep r) a ->
  let bs := firstn (Z.to_nat (cap r - told (keep r) a)) (rest r) in 0 < len bs ->
  read_line r = Ok (R (skipn (Z.to_nat (cap r - told (keep r) a)) (rest r)) (store (dat r) 0 bs) (gen r) (cap r) 0 (len bs) false (keep r),
                    Some (Ptr (gen r) (pos r) (told (keep r) a))).
Proof.
  intros W HL Ha Hc Hk bs Hb. unfold read_line. rewrite HL, (buffer_line_any r a []) by easy. cbn [bind set_window pos lim p_len].
  destruct W as (V0 & V1 & V2 & V3). rewrite len_app, len_cons, len_nil in V2.
  rewrite (proj2 (Z.eqb_eq _ _)) by lia. cbn [cap set_window]. rewrite (proj2 (Z.eqb_neq _ _)) by easy.
  unfold sys_read. cbn [rest set_window cap dat gen pos lim last_line keep]. fold bs. rewrite (proj2 (Z.leb_gt _ 0)) by lia. now rewrite HL.
Qed.

(** ** A line lost: four lines of half a buffer each *)
Lemma four_lines size k x1 x2 x3 x4 : 0 < k -> size = 2 * k -> 
  Forall (fun x => len x + 1 = k /\ ~ In 10 x /\ ~ In 13 x) [x1; x2; x3; x4] ->
  let line x := x ++ [10] in
  run true (opened size true (line x1 ++ line x2 ++ line x3 ++ line x4)) [ReadLine; ReadLine; ReadLine] =
    Ok [Text (line x1); Text (line x2); Text (line x4)].
Proof.
  intros Hk -> HF line. inversion HF as [|? ? (L1 & N1 & C1) HF1]. inversion HF1 as [|? ? (L2 & N2 & C2) HF2].
  inversion HF2 as [|? ? (L3 & N3 & C3) HF3]. inversion HF3 as [|? ? (L4 & N4 & C4) _]. subst. clear HF HF1 HF2 HF3.
  assert (Hline : forall x, len x + 1 = len x1 + 1 -> length (line x) = Z.to_nat (len x1 + 1)) by (intros x Hx; unfold line, len in *; rewrite app_length; cbn; lia).
  set (k := len x1 + 1) in *. pose proof (len_pos x1).
  assert (Hll : forall x, len x + 1 = k -> len (line x) = k) by (intros x Hx; unfold line; rewrite len_app, len_cons, len_nil; lia).
  set (content := line x1 ++ line x2 ++ line x3 ++ line x4).
  assert (E1 : firstn (Z.to_nat (2 * k)) content = x1 ++ 10 :: line x2).
  { unfold content. rewrite app_assoc, firstn_app. rewrite firstn_all2 by (rewrite app_length, !Hline by easy; lia).
    replace (Z.to_nat (2 * k) - length (line x1 ++ line x2))%nat with O by (rewrite app_length, !Hline by easy; lia).
    cbn [firstn]. rewrite app_nil_r. unfold line. now rewrite <- app_assoc. }
  assert (E2 : skipn (Z.to_nat (2 * k)) content = line x3 ++ line x4).
  { unfold content. rewrite app_assoc, skipn_app. rewrite skipn_all2 by (rewrite app_length, !Hline by easy; lia).
    replace (Z.to_nat (2 * k) - length (line x1 ++ line x2))%nat with O by (rewrite app_length, !Hline by easy; lia). easy. }
  cbn [run step]. unfold read_line_string at 1. rewrite (first_line _ _ _ x1 (line x2)) by (easy || lia). rewrite E2. cbn [bind told]. fold k.
  rewrite (text_ok _ _ _ _ (line x1)); [|easy| |lia| |symmetry; now apply Hll].
  2:{ cbn. pose proof (seg_store (fun _ : Z => None) 0 (x1 ++ 10 :: line x2)) as G. change (x1 ++ 10 :: line x2) with (x1 ++ [10] ++ line x2) in G at 2.
      rewrite app_assoc in G. now apply seg_app in G as [G _]. }
  2:{ rewrite Hll by easy. cbn [cap]. lia. }
  cbn [bind shown].
  set (r1 := R _ _ _ _ _ _ _ _).
  assert (W1 : window r1 (x2 ++ [10])).
  { repeat split; cbn [r1 pos lim cap dat]; try lia.
    - rewrite len_app, len_cons, Hll by easy. lia.
    - rewrite len_app, len_cons. unfold line. lia.
    - pose proof (seg_store (fun _ : Z => None) 0 (x1 ++ 10 :: line x2)) as G. change (x1 ++ 10 :: line x2) with (x1 ++ [10] ++ line x2) in G at 2.
      rewrite app_assoc in G. apply seg_app in G as [_ G]. change (x1 ++ [10]) with (line x1) in G. rewrite (Hll x1) in G by easy. now rewrite Z.add_0_l in G. }
  assert (B1 : firstn (Z.to_nat (cap r1 - told (keep r1) x2)) (rest r1) = line x3).
  { cbn [r1 cap keep told rest]. replace (2 * k - (len x2 + 1)) with k by lia. rewrite firstn_app, Hline, Nat.sub_diag by easy. cbn [firstn]. rewrite app_nil_r. apply firstn_all2. rewrite Hline by easy. lia. }
  assert (B2 : skipn (Z.to_nat (cap r1 - told (keep r1) x2)) (rest r1) = line x4).
  { cbn [r1 cap keep told rest]. replace (2 * k - (len x2 + 1)) with k by lia. rewrite skipn_app, Hline, Nat.sub_diag by easy. rewrite skipn_all2 by (rewrite Hline by easy; lia). easy. }
  unfold read_line_string at 1. rewrite (edge_line r1 x2 W1 eq_refl N2 C2); [|cbn [r1 cap keep told]; lia|rewrite B1, Hll by easy; lia]. rewrite B1, B2. cbn [bind].
  rewrite (text_ok _ _ _ _ (line x2)); [|easy| |apply W1| |cbn [told keep r1]; rewrite Hll by easy; lia].
  2:{ cbn [dat]. apply seg_store_off; [apply W1|]. right. rewrite Hll by easy. cbn [pos r1]. lia. }
  2:{ rewrite Hll by easy. cbn [cap pos r1]. lia. }
  cbn [bind shown]. set (r2 := R _ _ _ _ _ _ _ _).
  assert (W2 : window r2 (x3 ++ [10])).
  { repeat split; cbn [r2 pos lim cap dat]; try lia; try easy. { rewrite Hll by easy. cbn [cap r1]. lia. } apply seg_store. }
  assert (B3 : firstn (Z.to_nat (cap r2 - told (keep r2) x3)) (rest r2) = line x4).
  { cbn [r2 r1 cap keep told rest]. replace (2 * k - (len x3 + 1)) with k by lia. apply firstn_all2. rewrite Hline by easy. lia. }
  unfold read_line_string at 1. rewrite (edge_line r2 x3 W2 eq_refl N3 C3); [|cbn [r2 r1 cap keep told]; lia|rewrite B3, Hll by easy; lia]. rewrite B3. cbn [bind].
  rewrite (text_ok _ _ _ _ (line x4)); [|easy|cbn [dat]; apply seg_store|cbn; lia| |cbn [told keep r2 r1]; rewrite Hll by easy; lia].
  2:{ rewrite Hll by easy. cbn [cap pos r2 r1]. lia. }
  easy.
Qed.

(** ** A last line without newline is read again *)
Lemma read_again size content n : 1 <= size -> content <> [] -> ~ In 10 content -> n < 0 ->
  run true (opened size true content) [ReadLine; Read n] = Ok [Text content; Text content].
Proof.
  intros Hs Hc Hn Hz. set (r := opened size true content).
  assert (A : at_ r ([] ++ rest r)).
  { repeat split; cbn; try lia. exists []. split; [|easy]. repeat split; cbn; try lia. apply seg_nil. }
  assert (W : window r []) by (repeat split; cbn; try lia; apply seg_nil).
  destruct (line_refill r [] A W) as [(C & _)|[(_ & _ & r' & p & E1 & E2 & (D1 & D2 & D3 & D4) & W')|(a & b & r' & p & C1 & _)]]; [easy|easy| |].
  - cbn [app] in *. change (rest r) with content in *. cbn [run step]. unfold read_line_string. rewrite E1. cbn [bind]. rewrite E2. cbn [bind shown].
    unfold read_bytes. rewrite (proj2 (Z.ltb_lt n 0)) by lia. rewrite (window_copy r' _ W'). cbn [bind].
    destruct (read_all_ok (S (length (rest r'))) (set_window r' 0 0)) as (r2 & E3 & _); try easy; [repeat split; cbn; try lia; apply seg_nil|cbn; lia|].
    rewrite E3. cbn [bind set_window rest]. rewrite D4, app_nil_r. easy.
  - exfalso. cbn in C1. apply Hn. rewrite C1. apply in_or_app. right. now left.
Qed.

(** ** Too many bytes *)
Lemma firstn_exact {A} (a b : list A) n : n = len a -> firstn (Z.to_nat n) (a ++ b) = a /\ skipn (Z.to_nat n) (a ++ b) = b.
Proof.
  intros ->. rewrite to_len, firstn_app, skipn_app, Nat.sub_diag, firstn_all, skipn_all. cbn. now rewrite app_nil_r.
Qed.
Lemma read_first size content n : 1 <= size -> 0 < n -> firstn (Z.to_nat size) content <> [] ->
  read_bytes (opened size true content) n =
    (let! (r, l) := read_some (S (S (length content)))
       (R (skipn (Z.to_nat size) content) (store (fun _ => None) 0 (firstn (Z.to_nat size) content)) 0 size 0 (len (firstn (Z.to_nat size) content)) false true) n n in
     Ok (r, l)).
Proof.
  intros Hs Hn Hne. unfold read_bytes. rewrite (proj2 (Z.ltb_ge n 0)) by lia. cbn [opened rest].
  generalize (S (S (length content))). intros f. cbn [read_some]. cbn [opened pos lim cap rest dat gen keep last_line set_window]. rewrite (proj2 (Z.leb_gt n 0)), (proj2 (Z.ltb_ge n _)) by lia.
  unfold copy. cbn [Z.sub Z.opp Z.add Z.to_nat bytes_at bind last_line set_window]. unfold sys_read. cbn [rest dat gen cap pos lim last_line keep set_window].
  assert (Hp : 0 < len (firstn (Z.to_nat size) content)).
  { pose proof (len_pos (firstn (Z.to_nat size) content)). destruct (Z.eq_dec (len (firstn (Z.to_nat size) content)) 0) as [E|E]; [now apply len_zero in E|lia]. }
  cbn [opened rest dat gen cap last_line keep].
  rewrite (proj2 (Z.leb_gt (len (firstn (Z.to_nat size) content)) 0)) by exact Hp.
  rewrite Z.sub_0_r. easy.
Qed.
Lemma too_many size a z b : 3 <= size -> len a + 1 = size -> 3 <= len b ->
  run true (opened size true (a ++ z :: b)) [Read (size - 1); Read 3] = Ok [Text a; Text (z :: firstn 3 b)].
Proof.
  intros Hs Ha Hb. cbn [run step]. replace (a ++ z :: b) with ((a ++ [z]) ++ b) by now rewrite <- app_assoc.
  destruct (firstn_exact (a ++ [z]) b size) as [E1 E2]; [rewrite len_app, len_cons, len_nil; lia|].
  rewrite read_first; [|lia|lia|rewrite E1; now destruct a]. rewrite E1, E2.
  set (r := R _ _ _ _ _ _ _ _).
  assert (Lr : len (a ++ [z]) = size) by (rewrite len_app, len_cons, len_nil; lia).
  assert (W : window r (a ++ [z])).
  { repeat split; cbn; try lia. apply seg_store. }
  destruct (near_read_part r (a ++ [z]) (S (S (length ((a ++ [z]) ++ b)))) (size - 1) W) as (r1 & E3 & A3 & R3 & C3); [easy|cbn; lia|easy|lia|lia|lia|].
  rewrite E3. cbn [bind]. destruct (firstn_exact a [z] (size - 1)) as [E4 E5]; [lia|]. rewrite E4. rewrite E5 in A3.
  change (rest r) with b in *. destruct A3 as (A1 & A2 & A4 & A5 & w & W1 & Hw). rewrite R3 in Hw. apply app_inv_tail in Hw. subst w.
  change (cap r) with size in C3. pose proof W1 as (U0 & U1 & U2 & U3). rewrite len_cons, len_nil in U2.
  unfold read_bytes at 1. cbn [Z.ltb Z.compare]. set (f := S (S (length (rest r1)))). assert (Hf : (0 < f)%nat) by (unfold f; lia). clearbody f.
  cbn [read_some Z.leb Z.compare]. rewrite (proj2 (Z.ltb_ge 3 _)) by lia. rewrite (window_copy r1 [z] W1). cbn [bind set_window last_line]. rewrite A1.
  unfold sys_read. cbn [rest dat gen cap pos lim last_line keep set_window]. rewrite R3, C3.
  set (bs := firstn (Z.to_nat size) b). assert (Lb : 3 <= len bs) by (unfold bs, len in *; rewrite firstn_length; lia).
  rewrite (proj2 (Z.leb_gt _ 0)) by lia. replace (3 - (lim r1 - pos r1)) with 2 by lia.
  destruct f as [|f]; [lia|]. cbn [read_some Z.leb Z.compare set_window pos lim]. rewrite (proj2 (Z.ltb_lt 2 _)) by lia.
  rewrite (seg_copy _ 0 (firstn 3 bs) 3).
  - cbn [bind app]. unfold bs. rewrite firstn_firstn. replace (Nat.min 3 (Z.to_nat size)) with 3%nat by lia. easy.
  - cbn [set_window dat]. pose proof (seg_store (dat r1) 0 bs) as G. rewrite <- (firstn_skipn 3 bs) in G at 2. now apply seg_app in G as [G _].
  - lia.
  - cbn [set_window cap]. unfold len. rewrite firstn_length. lia.
  - unfold len in *. rewrite firstn_length. lia.
Qed.

(** ** A line in a buffer that was given back *)
Lemma given_back size a l : 1 <= size -> len a = size -> len l + 1 = size -> ~ In 10 l ->
  run true (opened size true (a ++ l ++ [10])) [Read size; ReadLine] = UB.
Proof.
  intros Hs Ha Hl Hn. cbn [run step]. destruct (firstn_exact a (l ++ [10]) size) as [E1 E2]; [lia|].
  rewrite read_first; [|lia|lia|rewrite E1; intros ->; unfold len in Ha; cbn in Ha; lia]. rewrite E1, E2.
  set (r := R _ _ _ _ _ _ _ _). set (f := length (a ++ l ++ [10])).
  assert (W : window r a) by (repeat split; cbn; try lia; apply seg_store).
  cbn [read_some]. rewrite (proj2 (Z.leb_gt size 0)), (proj2 (Z.ltb_ge size _)) by (cbn; lia). rewrite (window_copy r a W). cbn [bind set_window last_line r].
  unfold sys_read. cbn [r rest dat gen cap pos lim last_line keep set_window].
  assert (Lb : len (l ++ [10]) = size) by (rewrite len_app, len_cons, len_nil; lia).
  destruct (firstn_exact (l ++ [10]) [] size) as [E3 E4]; [lia|]. rewrite app_nil_r in E3, E4. rewrite E3, E4, Lb.
  rewrite (proj2 (Z.leb_gt size 0)) by lia. rewrite Ha, Z.sub_0_r, Z.sub_diag. cbn [Z.leb Z.compare bind].
  set (r1 := set_window _ _ _).
  assert (W1 : window r1 (l ++ [10])) by (repeat split; cbn [r1 set_window pos lim cap dat]; try lia; apply seg_store).
  unfold read_line_string, read_line. change (last_line r1) with false. cbv iota. rewrite (buffer_line r1 l []) by easy. cbn [bind].
  cbn [set_window pos lim r1 cap p_len]. rewrite (proj2 (Z.eqb_eq _ _)) by lia. rewrite (proj2 (Z.eqb_eq size (len l + 1))) by lia.
  unfold grow. cbn [set_window rest dat gen cap pos lim last_line keep]. unfold sys_read. cbn [rest]. rewrite firstn_nil. reflexivity.
Qed.

(** ** Newlines that are dropped: a line with a wrong first byte *)
Lemma overwritten size x1 c x2 y : len x1 + len x2 + 3 = size -> ~ In 10 x1 -> ~ In 13 x1 -> ~ In 10 (c :: x2) -> ~ In 13 (c :: x2) -> len x1 + 2 <= len y ->
  run true (opened size false (x1 ++ 10 :: c :: x2 ++ 10 :: y)) [ReadLine; ReadLine] = Ok [Text x1; Text (nth (S (length x1)) y 0 :: x2)].
Proof.
  intros Hs N1 C1 N2 C2 Hy. pose proof (len_pos x1). pose proof (len_pos x2).
  set (l2 := (c :: x2) ++ [10]). assert (L2 : len l2 = len x2 + 2) by (unfold l2; rewrite len_app, !len_cons, len_nil; lia).
  replace (x1 ++ 10 :: c :: x2 ++ 10 :: y) with ((x1 ++ 10 :: l2) ++ y) by (unfold l2; rewrite <- !app_assoc; cbn; now rewrite <- !app_assoc).
  destruct (firstn_exact (x1 ++ 10 :: l2) y size) as [E1 E2]; [rewrite len_app, len_cons; lia|].
  cbn [run step]. unfold read_line_string at 1. rewrite (first_line _ _ _ x1 l2) by (easy || lia). rewrite E2. cbn [bind told].
  pose proof (seg_store (fun _ : Z => None) 0 (x1 ++ 10 :: l2)) as G. change (x1 ++ 10 :: l2) with (x1 ++ [10] ++ l2) in G at 2.
  apply seg_app in G as [G1 G2]. apply seg_app in G2 as [_ G2]. change (len [10]) with 1 in G2.
  rewrite (text_ok _ _ _ _ x1); [|easy|exact G1|lia|cbn [cap]; lia|easy]. cbn [bind shown].
  set (r1 := R _ _ _ _ _ _ _ _).
  assert (W1 : window r1 ((c :: x2) ++ [10])).
  { fold l2. repeat split; cbn [r1 pos lim cap dat]; try lia.
    - rewrite len_app, len_cons. lia.
    - rewrite len_app, len_cons. lia.
    - now replace (len x1 + 1) with (0 + len x1 + 1) by lia. }
  set (bs := firstn (Z.to_nat (cap r1 - told (keep r1) (c :: x2))) (rest r1)).
  assert (Lb : len bs = len x1 + 2).
  { unfold bs. cbn [r1 cap keep told rest]. rewrite len_cons. unfold len in *. rewrite firstn_length. lia. }
  assert (Eb : bs = firstn (S (S (length x1))) y).
  { unfold bs. cbn [r1 cap keep told rest]. rewrite len_cons. f_equal. unfold len in *. lia. }
  unfold read_line_string at 1. rewrite (edge_line r1 (c :: x2) W1 eq_refl N2 C2); [|cbn [r1 cap keep told]; rewrite len_cons; lia|fold bs; lia].
  fold bs. cbn [bind].
  rewrite (text_ok _ _ _ _ (nth (S (length x1)) y 0 :: x2)); [easy|easy| |cbn; lia|cbn [r1 cap pos]; rewrite len_cons; lia|cbn [r1 keep told]; now rewrite !len_cons].
  cbn [dat]. apply seg_cons. split.
  - unfold store. cbn [r1 pos]. rewrite (proj2 (Z.leb_le 0 _)), (proj2 (Z.ltb_lt _ _)) by lia. cbn [andb].
    replace (Z.to_nat (len x1 + 1 - 0)) with (S (length x1)) by (unfold len; lia). rewrite Eb.
    assert (Hly : (S (length x1) < length y)%nat) by (unfold len in Hy; lia). clear -Hly.
    rewrite <- (firstn_skipn (S (S (length x1))) y) at 2. rewrite app_nth1 by (rewrite firstn_length; lia).
    apply nth_error_nth'. rewrite firstn_length. lia.
  - apply seg_store_off; [|right; cbn [r1 pos]; lia]. destruct W1 as (_ & _ & _ & W1). cbn [app] in W1. apply seg_cons in W1 as [_ W1]. now apply seg_app in W1 as [W1 _].
Qed.

(** ** Carriage returns stay *)
Lemma universal_no_cr_aux : forall n s, (length s <= n)%nat -> ~ In 13 (universal s).
Proof.
  induction n as [|n IH]; intros s Hn; [destruct s; [easy|cbn in Hn; lia]|].
  destruct s as [|c s]; [easy|]. cbn [length] in Hn. cbn [universal]. destruct (Z.eqb_spec c 13) as [->|Hc].
  - destruct s as [|d u]; [intros [H|H]; easy|]. destruct (Z.eqb_spec d 10); (intros [H|H]; [easy|revert H; apply IH; cbn [length] in *; lia]).
  - intros [H|H]; [easy|]. revert H. apply IH. lia.
Qed.
Lemma universal_no_cr s : ~ In 13 (universal s).
Proof. now apply (universal_no_cr_aux (length s)). Qed.
