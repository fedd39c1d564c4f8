(** C56, C57: what a script reads from a file. *)
From Verif Require Import Base Utf8Model FrModel FrSpec FrProofs FrText FrBad.
Local Open Scope Z_scope.

(** readline, readlines and (bytes) read() of a file of any size, whatever the size of the buffer, as long as no line
    ends where the buffer that was filled in advance ends. *)
Theorem C56_lines_partial : forall binary size content ops, 1 <= size -> valid binary content -> (binary = false -> no_cr content) ->
  Forall (fun o => o = ReadLine \/ o = ReadLines \/ (binary = true /\ terminated content /\ exists n, o = Read n /\ n < 0)) ops ->
  sound size 0 0 (line_lengths (file binary content)) ->
  run binary (opened size true (file binary content)) ops = Ok (python binary content ops).
Proof.
  intros b size content ops Hs V Hc Ho Hl. unfold python. rewrite (run_lines b (terminated content) ops _ content).
  - destruct b; [easy|]. now rewrite universal_id by auto.
  - left. now apply opened_held.
  - easy.
  - apply terminated_file.
  - exact Ho.
Qed.
Print Assumptions C56_lines_partial.
(** lines of 4, 3, 7, 12, 5 and 2 bytes through a buffer of 8; the fourth makes it grow *)
Example C56_example :
  let content := [65;65;65;10; 66;66;10; 67;67;67;67;67;67;10; 68;68;68;68;68;68;68;68;68;68;68;10; 69;69;69;69;10; 70;70] in
  sound 8 0 0 (line_lengths (file true content)) /\ valid true content /\
  run true (opened 8 true content) [ReadLine; ReadLines; ReadLine] =
    Ok [Text [65;65;65;10];
        Texts [[66;66;10]; [67;67;67;67;67;67;10]; [68;68;68;68;68;68;68;68;68;68;68;10]; [69;69;69;69;10]; [70;70]]; Text []].
Proof. split; [vm_compute; repeat split|]. split; [|vm_compute; reflexivity]. repeat (apply Forall_cons; [lia|]). apply Forall_nil. Qed.

(** Every file that fits into the buffer is one of those *)
Theorem C56_small : forall size s, 1 <= size -> Z.of_nat (length s) <= size -> sound size 0 0 (line_lengths s).
Proof. exact small_sound. Qed.
Print Assumptions C56_small.

(** The for loop over such a file gives its lines, and perhaps an empty one more *)
Theorem C56_loop_partial : forall binary size content, 1 <= size -> valid binary content -> (binary = false -> no_cr content) ->
  sound size 0 0 (line_lengths (file binary content)) ->
  exists l, run binary (opened size true (file binary content)) [ForLines] = Ok [Texts l] /\
    (python binary content [ForLines] = [Texts l] \/ l = lines content ++ [[]]).
Proof.
  intros b size content Hs V Hc Hl. set (r := opened size true (file b content)).
  assert (H : st False r (file b content)) by (left; now apply opened_held).
  destruct (each_ok (all r) r _ (or_intror H)) as (r' & l & E & El & _); [apply st_length in H; unfold all; lia|].
  cbn [run step]. rewrite E. cbn [bind].
  assert (Hp : python b content [ForLines] = [Texts (lines content)]) by (unfold python; destruct b; [easy|]; now rewrite universal_id by auto).
  destruct El as [->| ->].
  - rewrite lines_file, showns_file by (auto using valid_lines). cbn [bind]. exists (lines content). split; [easy|now left].
  - rewrite lines_file by easy. replace (map (file b) (lines content) ++ [[]]) with (map (file b) (lines content ++ [[]])) by (rewrite map_app; now destruct b).
    rewrite showns_file; [|apply Forall_app; split; [now apply valid_lines|apply Forall_cons; [apply valid_nil|apply Forall_nil]]].
    cbn [bind]. eexists. split; [reflexivity|now right].
Qed.
Print Assumptions C56_loop_partial.
Example C56_loop_example : run true (opened 8 true [65; 10; 66; 10]) [ForLines] = Ok [Texts [[65; 10]; [66; 10]]] /\
  run true (opened 8 true [65; 65; 65; 65; 65; 65; 10; 66; 66; 66; 10]) [ForLines] = Ok [Texts [[65; 65; 65; 65; 65; 65; 10]; [66; 66; 66; 10]; []]].
Proof. split; vm_compute; reflexivity. Qed.

(** It is one too many for an empty file and for every file of one line *)
Theorem C56_loop_extra_refuted : forall binary size, 1 <= size ->
  run binary (opened size true []) [ForLines] = Ok [Texts [[]]] /\ python binary [] [ForLines] = [Texts []] /\
  forall content, valid binary content -> single content -> (binary = false -> no_cr content) ->
    run binary (opened size true (file binary content)) [ForLines] = Ok [Texts [content; []]] /\ python binary content [ForLines] = [Texts [content]].
Proof.
  intros b size Hs. split; [now apply loop_empty|]. split; [now destruct b|]. intros content V S Hc. split; [now apply loop_single|].
  unfold python. destruct S as (a & -> & Ha).
  assert (E : lines (a ++ [10]) = [a ++ [10]]) by now rewrite lines_cut.
  destruct b; cbn [pyrun pystep]; [now rewrite E|]. rewrite universal_id by auto. now rewrite E.
Qed.
Print Assumptions C56_loop_extra_refuted.

(** Of four lines as long as half the buffer the fourth comes twice and the third never *)
Theorem C56_lost_line_refuted : forall k x1 x2 x3 x4, 0 < k ->
  Forall (fun x => Z.of_nat (length x) + 1 = k /\ ~ In 10 x /\ ~ In 13 x) [x1; x2; x3; x4] -> x3 <> x4 ->
  let content := (x1 ++ [10]) ++ (x2 ++ [10]) ++ (x3 ++ [10]) ++ (x4 ++ [10]) in
  run true (opened (2 * k) true content) [ReadLine; ReadLine; ReadLine] = Ok [Text (x1 ++ [10]); Text (x2 ++ [10]); Text (x4 ++ [10])] /\
  run true (opened (2 * k) true content) [ReadLine; ReadLine; ReadLine] <> Ok (python true content [ReadLine; ReadLine; ReadLine]).
Proof.
  intros k x1 x2 x3 x4 Hk HF Hd content. pose proof (four_lines (2 * k) k x1 x2 x3 x4 Hk eq_refl HF) as E. cbv zeta in E. split; [exact E|].
  unfold content. rewrite E. clear E content.
  inversion HF as [|? ? (L1 & N1 & C1) HF1]. inversion HF1 as [|? ? (L2 & N2 & C2) HF2]. inversion HF2 as [|? ? (L3 & N3 & C3) _].
  unfold python. cbn [pyrun pystep]. rewrite <- !app_assoc. cbn [app]. rewrite lines_cut by easy. cbn [hd tl]. rewrite concat_lines.
  rewrite lines_cut by easy. cbn [hd tl]. rewrite concat_lines. rewrite lines_cut by easy. cbn [hd tl].
  intros E. injection E as E. apply app_inj_tail in E as [E _]. now apply Hd.
Qed.
Print Assumptions C56_lost_line_refuted.
(** the buffer of the program: four lines of 4 MiB *)
Example C56_lost_line_example : let x c := repeat c (Z.to_nat (4 * 1024 * 1024 - 1)) in
  2 * (4 * 1024 * 1024) = buf_size /\
  Forall (fun x => Z.of_nat (length x) + 1 = 4 * 1024 * 1024 /\ ~ In 10 x /\ ~ In 13 x) [x 65; x 66; x 67; x 68] /\ x 67 <> x 68.
Proof.
  assert (P : forall n c, c <> 10 -> c <> 13 -> let x := repeat c (Z.to_nat (n - 1)) in 1 <= n -> Z.of_nat (length x) + 1 = n /\ ~ In 10 x /\ ~ In 13 x).
  { intros n c H1 H2 x Hn. unfold x. rewrite repeat_length. split; [lia|]. split; intros H; apply repeat_spec in H; lia. }
  assert (Q : forall n, 1 < n -> repeat 67 (Z.to_nat (n - 1)) <> repeat 68 (Z.to_nat (n - 1))).
  { intros n Hn. replace (Z.to_nat (n - 1)) with (S (Z.to_nat (n - 2))) by lia. cbn [repeat]. intros E. discriminate E. }
  intros x. split; [reflexivity|]. split; [|apply Q; lia].
  apply Forall_cons; [apply P; lia|]. apply Forall_cons; [apply P; lia|]. apply Forall_cons; [apply P; lia|]. apply Forall_cons; [apply P; lia|]. apply Forall_nil.
Qed.

(** A reader that drops newlines (the vocabulary of a lookup table): a line that ends where the buffer ends gets a byte of
    a later line *)
Theorem C56_dropped_refuted : forall size x1 c x2 y, Z.of_nat (length x1) + Z.of_nat (length x2) + 3 = size ->
  ~ In 10 x1 -> ~ In 13 x1 -> ~ In 10 (c :: x2) -> ~ In 13 (c :: x2) -> Z.of_nat (length x1) + 2 <= Z.of_nat (length y) ->
  run true (opened size false (x1 ++ 10 :: c :: x2 ++ 10 :: y)) [ReadLine; ReadLine] = Ok [Text x1; Text (nth (S (length x1)) y 0 :: x2)].
Proof. exact overwritten. Qed.
Print Assumptions C56_dropped_refuted.
Example C56_dropped_example :
  run true (opened 8 false [97;97;10; 98;98;98;98;10; 99;99;10;100;100;10]) [ReadLine; ReadLine] = Ok [Text [97;97]; Text [100;98;98;98]].
Proof. vm_compute. reflexivity. Qed.

(** Any program over a file that fits into the buffer *)
Theorem C57_programs_partial : forall binary size content ops, 1 <= size -> valid binary content -> (binary = false -> no_cr content) ->
  Z.of_nat (length (file binary content)) <= size ->
  (In ForLines ops -> content <> [] /\ ~ single content) ->
  (forall n, In (Read n) ops -> terminated content /\ (binary = false -> 0 <= n)) ->
  run binary (opened size true (file binary content)) ops = Ok (python binary content ops).
Proof.
  intros b size content ops Hs V Hc Hl HE HT. unfold python. rewrite (run_small b (terminated content) (In ForLines ops) ops _ content).
  - destruct b; [easy|]. now rewrite universal_id by auto.
  - now apply small_inv.
  - easy.
  - apply terminated_file.
  - apply Forall_forall. intros [| | |n] Ho; try easy. now apply HT.
Qed.
Print Assumptions C57_programs_partial.
Example C57_example :
  run false (opened 64 true [65; 10; 226; 130; 172; 240; 159; 152; 128; 66; 10; 67; 10]) [ReadLine; Read 2; ReadLine; ForLines; Read 1] =
    Ok [Text [65; 10]; Text [8364; 128512]; Text [66; 10]; Texts [[67; 10]]; Text []] /\
  file false [65; 10; 8364; 128512; 66; 10; 67; 10] = [65; 10; 226; 130; 172; 240; 159; 152; 128; 66; 10; 67; 10] /\
  ~ single [65; 10; 8364; 128512; 66; 10; 67; 10].
Proof.
  split; [vm_compute; reflexivity|]. split; [vm_compute; reflexivity|]. intros (a & E & Ha).
  apply Ha. change [65; 10; 8364; 128512; 66; 10; 67; 10] with ([65; 10; 8364; 128512; 66; 10; 67] ++ [10]) in E. apply app_inj_tail in E as [<- _]. cbn [In]. tauto.
Qed.

(** A last line without newline comes twice *)
Theorem C57_read_again_refuted : forall size content n, 1 <= size -> content <> [] -> ~ In 10 content -> n < 0 ->
  run true (opened size true content) [ReadLine; Read n] = Ok [Text content; Text content] /\
  python true content [ReadLine; Read n] = [Text content; Text []].
Proof.
  intros size content n Hs Hc Hn Hz. split; [now apply read_again|]. unfold python. cbn [pyrun pystep]. rewrite lines_one by easy. cbn [hd tl concat].
  now rewrite (proj2 (Z.ltb_lt n 0)) by lia.
Qed.
Print Assumptions C57_read_again_refuted.

(** read(3) with one byte left in the buffer gives four bytes *)
Theorem C57_too_many_refuted : forall size a z b, 3 <= size -> Z.of_nat (length a) + 1 = size -> 3 <= Z.of_nat (length b) ->
  run true (opened size true (a ++ z :: b)) [Read (size - 1); Read 3] = Ok [Text a; Text (z :: firstn 3 b)] /\
  python true (a ++ z :: b) [Read (size - 1); Read 3] = [Text a; Text (z :: firstn 2 b)].
Proof.
  intros size a z b Hs Ha Hb. split; [now apply too_many|]. unfold python. cbn [pyrun pystep].
  rewrite (proj2 (Z.ltb_ge (size - 1) 0)) by lia. destruct (firstn_exact a (z :: b) (size - 1)) as [E1 E2]; [unfold len; lia|]. rewrite E1, E2. easy.
Qed.
Print Assumptions C57_too_many_refuted.

(** A line as long as the buffer, after a read that ended where it begins, is copied from memory that was given back *)
Theorem C57_given_back_refuted : forall size a l, 1 <= size -> Z.of_nat (length a) = size -> Z.of_nat (length l) + 1 = size -> ~ In 10 l ->
  run true (opened size true (a ++ l ++ [10])) [Read size; ReadLine] = UB.
Proof. exact given_back. Qed.
Print Assumptions C57_given_back_refuted.

(** read() of a text file gives nothing *)
Theorem C57_text_read_refuted : forall size content n, valid false content -> content <> [] -> n < 0 ->
  run false (opened size true (file false content)) [Read n] = Ok [Text []] /\ python false content [Read n] <> [Text []].
Proof.
  intros size content n V Hc Hn. split.
  - cbn [run step]. unfold read_unicode. cbn [read_chars]. now rewrite (proj2 (Z.leb_le n 0)) by lia.
  - unfold python. cbn [pyrun pystep]. rewrite (proj2 (Z.ltb_lt n 0)) by lia. intros E. injection E as E.
    destruct content as [|c [|d u]]; [easy| |]; cbn [universal] in E; destruct (c =? 13); try easy. now destruct (d =? 10).
Qed.
Print Assumptions C57_text_read_refuted.

(** Carriage returns are not translated *)
Theorem C57_newlines_refuted : forall size content, 1 <= size -> valid false content -> Z.of_nat (length (file false content)) <= size -> In 13 content ->
  run false (opened size true (file false content)) [ReadLines] <> Ok (python false content [ReadLines]).
Proof.
  intros size content Hs V Hl Hi. rewrite (run_small false False False [ReadLines] _ content); [|now apply small_inv|easy|easy|now apply Forall_cons].
  unfold python. cbn [pyrun pystep]. intros E. injection E as E. apply (universal_no_cr content).
  rewrite <- (concat_lines (universal content)), <- E, concat_lines. exact Hi.
Qed.
Print Assumptions C57_newlines_refuted.
