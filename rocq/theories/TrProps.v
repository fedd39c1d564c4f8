(** C54, C55: tries. *)
From Verif Require Import Base ListAux TrModel TrSpec TrProofs.
From Coq Require Import Sorted.
Local Open Scope Z_scope.

(** C54: a program that builds tries from dicts, updates keys that are not there yet, searches,
    saves and loads observes what it would with dictionaries from keys to values, where a search
    looks at every prefix.  [fines] is the full list of what is asked of the program.
    Missing: an update of a key that is there, which adds (see below); the refuted cases below. *)
Theorem C54_dictionaries_partial : forall ops,
  fines replace true sstart ops -> run start ops = Ok (srun replace sstart ops).
Proof. intros ops F. destruct (fresh_run ops sstart F) as [F' <-]. now apply run_ok; [apply start_match|]. Qed.
Print Assumptions C54_dictionaries_partial.

(** With updates read as adding to the value that is there. *)
Theorem C54_adding : forall ops,
  fines TrSpec.add false sstart ops -> run start ops = Ok (srun TrSpec.add sstart ops).
Proof. intros ops F. apply run_ok; [apply start_match|exact F]. Qed.
Print Assumptions C54_adding.

Definition good_dict (dic : list (text * Z)) : Prop :=
  Forall (fun p => key (fst p) /\ plain (snd p)) dic /\ NoDup (map (fun p => coded (fst p)) dic).
(** [k] is a key of the dict, with value [v] *)
Definition has (dic : list (text * Z)) (k : text) (v : Z) : Prop := exists k', In (k', v) dic /\ coded k' = coded k.

(** The search gives the longest prefix that is a key, or (0, -1) if none is. *)
Theorem C54_longest_partial : forall dic x pos,
  good_dict dic -> searchable (items dic) (rest x pos) ->
  exists n v, run start [New dic; Search 0 x pos] = Ok [Done; Pair n v] /\
    let r := rest x pos in
    ((n = 0 /\ v = -1 /\ forall m w, (1 <= m <= length (chars r))%nat -> ~ has dic (prefix m r) w) \/
     exists m, n = Z.of_nat m /\ (1 <= m <= length (chars r))%nat /\ has dic (prefix m r) v /\
       forall m' w, (m < m' <= length (chars r))%nat -> ~ has dic (prefix m' r) w).
Proof.
  intros dic x pos G SE. assert (F : fines TrSpec.add false sstart [New dic; Search 0 x pos]).
  { cbn [fines fine sstep]. split; [exact G|]. split; [|easy]. cbn. split; [lia|exact SE]. }
  rewrite (run_ok _ _ _ start_match F). cbn [srun sstep]. change (at_ _ 0) with (items dic).
  destruct (last (matches (items dic) (rest x pos)) (0, -1)) as [n v] eqn:E. exists n, v. split; [reflexivity|]. cbv zeta.
  assert (HN : forall k w, items dic (coded k) = None -> ~ has dic k w).
  { intros k w HK (k' & I & EK). assert (items dic (coded k) = Some w) by (apply items_in; [apply G|]; exists k'; easy). congruence. }
  apply longest_prefix in E as [(-> & -> & H)|(m & -> & L & D & H)].
  - left. split; [reflexivity|]. split; [reflexivity|]. intros m w LM. now apply HN, H.
  - right. exists m. split; [reflexivity|]. split; [exact L|]. split; [apply items_in in D; [exact D|apply G]|]. intros m' w L'. now apply HN, H.
Qed.
Print Assumptions C54_longest_partial.

(** The search for all gives every prefix that is a key, once, shortest first. *)
Theorem C54_all_partial : forall dic x pos,
  good_dict dic -> searchable (items dic) (rest x pos) ->
  exists l, run start [New dic; SearchAll 0 x pos] = Ok [Done; Pairs l] /\
    StronglySorted (fun a b => fst a < fst b) l /\
    forall n v, In (n, v) l <->
      exists m, n = Z.of_nat m /\ (1 <= m <= length (chars (rest x pos)))%nat /\ has dic (prefix m (rest x pos)) v.
Proof.
  intros dic x pos G SE. assert (F : fines TrSpec.add false sstart [New dic; SearchAll 0 x pos]).
  { cbn [fines fine sstep]. split; [exact G|]. split; [|easy]. cbn. split; [lia|exact SE]. }
  rewrite (run_ok _ _ _ start_match F). cbn [srun sstep]. change (at_ _ 0) with (items dic). eexists. split; [reflexivity|]. split; [apply matches_sorted|].
  intros n v. rewrite matches_in. split; intros (m & E & L & D); exists m; (split; [exact E|]); (split; [exact L|]); apply items_in in D; try exact D; apply G.
Qed.
Print Assumptions C54_all_partial.

(** What is asked can be met: keys where one begins another, keys that make nodes move, a key updated
    later, a text of one, two, three and four byte characters searched from the second one on. *)
Definition demo : list op :=
  [New [(Str [97; 98], 1); (Str [97], 2); (Str [97; 98; 233; 20013], 3); (Str [98; 128512], 7)];
   Update 0 (Str [97; 98; 233]) 5;
   Search 0 (Str [120; 97; 98; 233; 20013; 128512]) 1;
   SearchAll 0 (Str [120; 97; 98; 233; 20013; 128512]) 1;
   SearchAll 0 (Bytes [97; 98; 195; 169]) 0;
   Save 0 4; New []; Load 1 4;
   Update 1 (Bytes [98]) 9;
   SearchAll 1 (Str [98; 128512; 98]) (-3);
   SearchAll 0 (Str [98; 128512; 98]) 0].
Lemma nul_free (d : dict) w : existsb (Z.eqb 0) w = false -> forall k r, w = k ++ 0 :: r -> d k = None.
Proof. intros E k r ->. rewrite existsb_app in E. cbn in E. rewrite orb_true_r in E. discriminate. Qed.
Lemma text_bind d k v : (exists cs, proper (Str cs) /\ k = enc cs) -> (forall k, d k <> None -> exists cs, proper (Str cs) /\ k = enc cs) ->
  forall k', bind_key d k v k' <> None -> exists cs, proper (Str cs) /\ k' = enc cs.
Proof. intros H1 H2 k'. unfold bind_key. destruct (list_eq_dec Z.eq_dec k' k) as [->|]; [intros _; exact H1|apply H2]. Qed.
Lemma text_none k' : none k' <> None -> exists cs, proper (Str cs) /\ k' = enc cs.
Proof. intros H. now elim H. Qed.
Lemma by_new how fresh dic ops s : fine how fresh s (New dic) -> fines how fresh (Sp (dicts s ++ [items dic]) (saved s)) ops -> fines how fresh s (New dic :: ops).
Proof. easy. Qed.
Lemma by_update how fresh i x v ops s : fine how fresh s (Update i x v) -> fines how fresh (put s i (bind_key (at_ s i) (coded x) (how (at_ s i (coded x)) v))) ops -> fines how fresh s (Update i x v :: ops).
Proof. easy. Qed.
Lemma by_search how fresh i x pos ops s : fine how fresh s (Search i x pos) -> fines how fresh s ops -> fines how fresh s (Search i x pos :: ops).
Proof. intros S F. cbn [fines sstep]. split; [easy|]. destruct (last (matches (at_ s i) (rest x pos)) (0, -1)). exact F. Qed.
Lemma by_search_all how fresh i x pos ops s : fine how fresh s (SearchAll i x pos) -> fines how fresh s ops -> fines how fresh s (SearchAll i x pos :: ops).
Proof. easy. Qed.
Lemma by_save how fresh i n ops s : (i < length (dicts s))%nat -> fines how fresh (Sp (dicts s) (fun m => if m =? n then Some (at_ s i) else saved s m)) ops -> fines how fresh s (Save i n :: ops).
Proof. easy. Qed.
Lemma by_load how fresh i n ops s d : (i < length (dicts s))%nat -> saved s n = Some d -> fines how fresh (put s i d) ops -> fines how fresh s (Load i n :: ops).
Proof. intros L E F. cbn [fines sstep]. split; [easy|]. rewrite E. exact F. Qed.
Ltac all_ok := repeat (apply Forall_cons; [lia|]); apply Forall_nil.
Ltac key_ok := split; [cbn [proper fst]; all_ok|split; [discriminate|cbn; intuition discriminate]].
Ltac plain_ok := vm_compute; repeat split; discriminate.
Ltac as_text := match goal with |- exists cs, _ /\ coded (Str ?l) = _ => exists l | |- exists cs, _ /\ coded (Bytes ?l) = _ => exists l end; split; [cbn [proper]; all_ok|reflexivity].
Ltac key_text := first [exact text_none | apply text_bind; [as_text|key_text]].
Ltac search_ok :=
  split; [cbn; lia|split; [|split; [apply nul_free; vm_compute; reflexivity|split; [vm_compute; lia|]]]];
  [match goal with |- proper (rest ?x ?p) => let y := eval vm_compute in (rest x p) in change (rest x p) with y; cbn [proper]; all_ok end
  |cbn [rest]; first [exact Logic.I|cbv [at_ put dicts nth firstn skipn app items saved]; key_text]].
Ltac dict_ok := split; [repeat (apply Forall_cons; [split; [key_ok|plain_ok]|]); apply Forall_nil|vm_compute; repeat constructor; cbn; intuition discriminate].
Ltac update_ok := split; [cbn; lia|split; [key_ok|split; [vm_compute; repeat split; discriminate|split; [plain_ok|first [discriminate|reflexivity]]]]].
Ltac op_ok :=
  match goal with
  | |- fines _ _ _ (New _ :: _) => apply by_new; [dict_ok|cbn [dicts saved app]]
  | |- fines _ _ _ (Update _ _ _ :: _) => apply by_update; [update_ok|]
  | |- fines _ _ _ (Search _ _ _ :: _) => apply by_search; [search_ok|]
  | |- fines _ _ _ (SearchAll _ _ _ :: _) => apply by_search_all; [search_ok|]
  | |- fines _ _ _ (Save _ _ :: _) => apply by_save; [cbn; lia|]
  | |- fines _ _ _ (Load _ _ :: _) => eapply by_load; [cbn; lia|reflexivity|]
  | |- fines _ _ _ [] => exact Logic.I
  end.
Example C54_example_fines : fines replace true sstart demo.
Proof. unfold demo, sstart. do 12 op_ok. Qed.
Example C54_example :
  run start demo = Ok [Done; Done; Pair 4 3; Pairs [(1, 2); (2, 1); (3, 5); (4, 3)]; Pairs [(1, 2); (2, 1); (4, 5)];
                       Code 0; Done; Code 0; Done; Pairs [(1, 9); (2, 7)]; Pairs [(2, 7)]].
Proof. rewrite C54_dictionaries_partial by exact C54_example_fines. vm_compute. reflexivity. Qed.
(** the model itself, run *)
Example C54_example_run :
  run start [New [(Str [97; 98], 1); (Str [97], 2)]; Update 0 (Str [233]) 5; SearchAll 0 (Str [97; 98; 99]) 0; Search 0 (Str [97; 233]) 1] =
    Ok [Done; Done; Pairs [(1, 2); (2, 1)]; Pair 1 5].
Proof. vm_compute. reflexivity. Qed.

(** Where tries are not dictionaries. *)
(** An update of a key that is there adds to its value. *)
Theorem C54_update_adds_refuted : forall k v w,
  key k -> plain v -> fits w -> plain (v + w) ->
  run start [New [(k, v)]; Update 0 k w; Search 0 k 0] = Ok [Done; Done; Pair (Z.of_nat (length (chars k))) (v + w)].
Proof.
  intros k v w K PV FW PS.
  assert (E0 : rest k 0 = k). { destruct k as [l|l]; cbn [rest]; unfold from; cbn [Z.ltb Z.compare]; rewrite Z.min_l by lia; reflexivity. }
  assert (EB : items [(k, v)] (coded k) = Some v) by (cbn [items]; unfold bind_key; now destruct (list_eq_dec Z.eq_dec (coded k) (coded k))).
  pose proof (key_bytes k K) as (_ & NK & KO). set (d := bind_key (items [(k, v)]) (coded k) (v + w)).
  assert (DK : forall k', d k' <> None -> k' = coded k). { intros k'. unfold d, bind_key. cbn [items]. unfold bind_key, none. destruct (list_eq_dec Z.eq_dec k' (coded k)); [easy|intros H; now elim H]. }
  assert (DV : d (coded k) = Some (v + w)) by (unfold d, bind_key; now destruct (list_eq_dec Z.eq_dec (coded k) (coded k))).
  assert (PL : forall n, (n <= length (chars k))%nat -> d (coded (prefix n k)) <> None -> n = length (chars k)).
  { intros n LN H. apply DK in H. destruct (Nat.eq_dec n (length (chars k))) as [|NE]; [easy|]. exfalso. assert (LT : (n < length (chars k))%nat) by lia. destruct k as [l|l]; cbn [prefix coded chars] in *.
    - apply (f_equal (@length Z)) in H. rewrite firstn_length in H. lia.
    - rewrite <- (firstn_skipn n l) in H at 2. rewrite enc_app in H. apply (f_equal (@length Z)) in H. rewrite app_length in H. destruct (skipn n l) as [|c r] eqn:ES; [apply (f_equal (@length Z)) in ES; rewrite skipn_length in ES; cbn in ES; lia|].
      change (enc (c :: r)) with (enc1 c ++ enc r) in H. rewrite app_length in H. pose proof (enc1_ne c). destruct (enc1 c); [easy|]. cbn in H. lia. }
  assert (MM : matches d k = [(Z.of_nat (length (chars k)), v + w)]).
  { unfold matches. destruct K as (_ & NE & _). destruct (length (chars k)) as [|m] eqn:EL; [destruct (chars k); easy|]. replace (S m) with (m + 1)%nat by lia. rewrite seq_app, flat_map_app. cbn [seq flat_map]. rewrite app_nil_r.
    replace (prefix (1 + m) k) with k by (destruct k as [l|l]; cbn [prefix chars] in *; now rewrite firstn_all2 by lia). rewrite DV. replace (1 + m)%nat with (m + 1)%nat by lia.
    assert (EN : flat_map (fun n => match d (coded (prefix n k)) with Some v0 => [(Z.of_nat n, v0)] | None => [] end) (seq 1 m) = []); [|now rewrite EN].
    assert (HS : forall n, In n (seq 1 m) -> (n < S m)%nat) by (intros n I; apply in_seq in I; lia). revert HS. generalize (seq 1 m). induction l as [|n l IH]; intros HS; [reflexivity|]. cbn [flat_map]. destruct (d (coded (prefix n k))) as [u|] eqn:D.
    - specialize (HS n (or_introl eq_refl)). rewrite (PL n) in HS by (try lia; congruence). lia.
    - apply IH. intros q I. apply HS. now right. }
  assert (F : fines TrSpec.add false sstart [New [(k, v)]; Update 0 k w; Search 0 k 0]).
  { apply by_new; [split; [constructor; [easy|constructor]|constructor; [intros []|constructor]]|]. apply by_update.
    - cbn [fine]. split; [cbn; lia|]. split; [exact K|]. split; [exact FW|]. split; [|easy]. change (at_ _ 0) with (items [(k, v)]). rewrite EB. exact PS.
    - apply by_search; [|exact Logic.I]. cbn [fine]. split; [cbn; lia|]. rewrite E0. change (at_ (Sp _ _) 0 (coded k)) with (items [(k, v)] (coded k)). rewrite EB. cbn [TrSpec.add]. change (at_ _ 0) with d.
      split; [apply K|]. split; [|split; [rewrite MM; cbn; lia|]].
      + intros q r E. destruct (d q) eqn:DQ; [|reflexivity]. exfalso. assert (q = coded k) by (apply DK; congruence). subst q. apply (f_equal (@length Z)) in E. rewrite app_length in E. cbn in E. lia.
      + destruct k as [l|l]; [exact Logic.I|]. intros k' H. exists l. split; [apply K|]. now apply DK. }
  rewrite (run_ok _ _ _ start_match F). cbn [srun sstep]. rewrite E0. change (at_ (Sp (dicts sstart ++ [items [(k, v)]]) (saved sstart)) 0) with (items [(k, v)]). rewrite EB. cbn [TrSpec.add]. change (at_ _ 0) with d. rewrite MM. reflexivity.
Qed.
Print Assumptions C54_update_adds_refuted.
(** A key with the value -1 is never found. *)
Theorem C54_value_no_value_refuted :
  run start [New [(Bytes [97], -1)]; Search 0 (Bytes [97]) 0; SearchAll 0 (Bytes [97]) 0] = Ok [Done; Pair 0 (-1); Pairs []].
Proof. vm_compute. reflexivity. Qed.
Print Assumptions C54_value_no_value_refuted.
(** A key with the value -2 hides itself and every longer key. *)
Theorem C54_value_no_path_refuted :
  run start [New [(Bytes [97], -2); (Bytes [97; 98], 7)]; SearchAll 0 (Bytes [97; 98]) 0] = Ok [Done; Pairs []].
Proof. vm_compute. reflexivity. Qed.
Print Assumptions C54_value_no_path_refuted.
(** Values lose their upper 32 bits; a sum that does not fit is UB. *)
Theorem C54_value_truncated_refuted :
  run start [New [(Bytes [97], 2 ^ 32 + 5)]; Search 0 (Bytes [97]) 0] = Ok [Done; Pair 1 5].
Proof. vm_compute. reflexivity. Qed.
Print Assumptions C54_value_truncated_refuted.
Theorem C54_value_overflow_refuted :
  run start [New [(Bytes [97], 2 ^ 31 - 1)]; Update 0 (Bytes [97]) 1] = UB.
Proof. vm_compute. reflexivity. Qed.
Print Assumptions C54_value_overflow_refuted.
(** The empty key ends the process. *)
Theorem C54_empty_key_refuted : forall v ops,
  run start (New [(Bytes [], v)] :: ops) = Ok [Exited] /\
  run start (New [] :: Update 0 (Str []) v :: ops) = Ok [Done; Exited].
Proof. intros. split; reflexivity. Qed.
Print Assumptions C54_empty_key_refuted.
(** A text where a NUL follows a key: the value is taken for an index. *)
Theorem C54_nul_in_text_refuted :
  run start [New [(Bytes [97], 1000)]; Search 0 (Bytes [97; 0]) 0] = UB.
Proof. vm_compute. reflexivity. Qed.
Print Assumptions C54_nul_in_text_refuted.
(** More than 64 prefixes of a text are keys: a read past the end of the array of results. *)
Theorem C54_many_refuted : forall ops i w pos,
  fines TrSpec.add false sstart ops ->
  let s := send sstart ops in
  (i < length (dicts s))%nat -> proper (rest (Bytes w) pos) ->
  (forall k r, coded (rest (Bytes w) pos) = k ++ 0 :: r -> at_ s i k = None) ->
  (64 < length (matches (at_ s i) (rest (Bytes w) pos)))%nat ->
  run start (ops ++ [Search i (Bytes w) pos]) = UB /\ run start (ops ++ [SearchAll i (Bytes w) pos]) = UB.
Proof.
  intros ops i w pos F s LI P N L. cbn [rest coded proper] in *.
  split; apply (many_run ops start sstart _ start_match F); intros s' M; destruct (Match_at s' s i M LI) as (t & E & H); cbn [step]; rewrite E; cbn [bind trie_prefix_search trie_prefix_search_all]; rewrite from_substr;
    destruct (many_ok t _ (from pos w) H P N L) as [E1 E2]; [rewrite E1|rewrite E2]; reflexivity.
Qed.
Print Assumptions C54_many_refuted.
Definition as_ (n : nat) : list Z := repeat 97 n.
Example C54_many_example :
  let ops := [New (map (fun n => (Bytes (as_ n), Z.of_nat n)) (seq 1 65))] in
  fines TrSpec.add false sstart ops /\ (64 < length (matches (at_ (send sstart ops) 0) (rest (Bytes (as_ 65)) 0)))%nat.
Proof.
  cbv zeta. split; [apply by_new; [|exact Logic.I]; split|].
  - apply Forall_forall. intros x I. apply in_map_iff in I as (n & <- & I). apply in_seq in I. cbn [fst snd]. split; [|unfold plain, fits; lia]. split; [|split]; cbn [proper chars].
    + apply Forall_forall. intros c IC. apply repeat_spec in IC. lia.
    + destruct n; [lia|discriminate].
    + intros IC. apply repeat_spec in IC. discriminate.
  - rewrite map_map. cbn [fst coded]. assert (forall l, NoDup l -> NoDup (map (fun n => as_ n) l)) as X; [|apply X, seq_NoDup].
    induction 1 as [|n l NI ND IH]; [constructor|]. cbn [map]. constructor; [|exact IH]. intros I. apply in_map_iff in I as (m & E & I). apply (f_equal (@length Z)) in E. unfold as_ in E. rewrite !repeat_length in E. congruence.
  - vm_compute. lia.
Qed.
(** A key with a NUL: another key, not in the dict, is found. *)
Theorem C54_nul_in_key_refuted :
  run start [New [(Bytes [97; 0; 98], 5)]; Search 0 (Bytes [97]) 0; SearchAll 0 (Bytes [97; 0; 98]) 0] = Ok [Done; Pair 1 0; Pairs [(1, 0); (3, 5)]] /\
  run start [New [(Bytes [97; 0], 5)]; Search 0 (Bytes [97; 0]) 0] = Ok [Done; Pair 0 (-1)].
Proof. split; vm_compute; reflexivity. Qed.
Print Assumptions C54_nul_in_key_refuted.

(** C55: a trie loaded from a file answers a search as the trie did when it was saved, whatever was
    done to either in between. *)
Theorem C55_loaded_partial : forall pre i name mid j x pos,
  Forall (keeps name) mid ->
  fines TrSpec.add false sstart (pre ++ Save i name :: mid ++ [Load j name; Search j x pos]) ->
  exists l l' r, run start (pre ++ Save i name :: mid ++ [Load j name; Search j x pos]) = Ok (l ++ [r]) /\
    run start (pre ++ [Search i x pos]) = Ok (l' ++ [r]).
Proof. exact saved_loaded. Qed.
Print Assumptions C55_loaded_partial.
(** Saving a trie and loading it back, anywhere in a program, changes nothing the rest of the
    program observes: in particular, updates go on as if nothing had happened. *)
Theorem C55_transparent_partial : forall a i name b,
  Forall (avoids name) b -> (i < length (dicts (send sstart a)))%nat -> fines TrSpec.add false sstart (a ++ b) ->
  exists r1 r2, length r1 = length a /\ run start (a ++ b) = Ok (r1 ++ r2) /\
    run start (a ++ [Save i name; Load i name] ++ b) = Ok (r1 ++ [Code 0; Code 0] ++ r2).
Proof. exact through_file. Qed.
Print Assumptions C55_transparent_partial.
(** Loading a file that is not there fails and changes nothing. *)
Theorem C55_missing_partial : forall a i name b,
  Forall (keeps name) a -> (i < length (dicts (send sstart a)))%nat -> fines TrSpec.add false sstart (a ++ b) ->
  exists r1 r2, length r1 = length a /\ run start (a ++ b) = Ok (r1 ++ r2) /\
    run start (a ++ [Load i name] ++ b) = Ok (r1 ++ [Code (-1)] ++ r2).
Proof.
  intros a i name b K LI F. pose proof (send_saved name a sstart K) as ES. cbn [sstart saved] in ES. pose proof F as F0. apply fines_app in F as [F1 F2].
  assert (E : sstep TrSpec.add (send sstart a) (Load i name) = (send sstart a, Code (-1))) by (cbn [sstep]; now rewrite ES).
  assert (F' : fines TrSpec.add false sstart (a ++ [Load i name] ++ b)) by (apply fines_app; split; [exact F1|]; cbn [app fines]; rewrite E; split; [exact LI|exact F2]).
  exists (srun TrSpec.add sstart a), (srun TrSpec.add (send sstart a) b). split; [apply srun_length|]. rewrite (run_ok _ _ _ start_match F0), (run_ok _ _ _ start_match F'). rewrite !srun_app. split; [reflexivity|]. do 2 f_equal. cbn [send app srun]. rewrite E. reflexivity.
Qed.
Print Assumptions C55_missing_partial.
(** two tries, one saved, changed, then loaded into the other, which is updated *)
Definition story : list op :=
  [New [(Str [97; 98], 1); (Str [233], 2)]; Update 0 (Str [97; 98; 99]) 4;
   Save 0 1; Update 0 (Bytes [97; 98]) 10; New [(Bytes [99], 3)]; Save 1 2;
   Load 1 1; Search 1 (Str [97; 98; 99; 100]) 0].
Example C55_example : fines TrSpec.add false sstart story /\
  run start (story ++ [Search 0 (Str [97; 98]) 0]) = Ok [Done; Done; Code 0; Done; Done; Code 0; Code 0; Pair 3 4; Pair 2 11].
Proof.
  split; [unfold story, sstart; do 9 op_ok|]. rewrite C54_adding; [vm_compute; reflexivity|]. unfold story, sstart. cbn [app]. do 10 op_ok.
Qed.
