(** C58, C59: values written as text and read back. *)
From Coq Require Import Permutation String.
From Verif Require Import Base Utf8Model Utf8Spec Utf8Proofs FmtModel PkModel PkSpec PkText PkProofs.
Close Scope string_scope.
Open Scope list_scope.
Open Scope Z_scope.

(** *** Instances the examples use: doubles written as their bit pattern followed by ".0";
    keys that are ints and texts; tables that iterate backwards. *)
Definition toy : flt :=
  Flt (fun f => dec_digits 20 f [] ++ txt ".0")
      (fun t => let '(v, r) := strtoul 0 t in if eqs r (txt ".0") then Some v else None)
      (fun f => dec_digits 20 f []) (fun f => dec_digits 20 f []) (fun z => z) (fun _ f => f).
Definition toy_keys (a b : value) : bool :=
  match a, b with
  | VInt x, VInt y => x =? y
  | VStr x, VStr y | VBytes x, VBytes y => eqs x y
  | _, _ => false
  end.
Definition toy_tables : tables := Tables toy_keys (@rev _) (@rev _).
Definition one : Z := 4607182418800017408.       (* the bits of 1.0 *)
Definition infinity : Z := 9218868437227405312.
Lemma toy_one : exact toy one.
Proof.
  repeat split.
  - apply Forall_forall. vm_compute. intros c H. repeat (destruct H as [<-|H]; [tauto|]). contradiction.
  - eexists _, _. split; [reflexivity|]. vm_compute. tauto.
  - exists 46. vm_compute. tauto.
Qed.
Lemma toy_infinity : exact toy infinity.
Proof.
  repeat split.
  - apply Forall_forall. vm_compute. intros c H. repeat (destruct H as [<-|H]; [tauto|]). contradiction.
  - eexists _, _. split; [reflexivity|]. vm_compute. tauto.
  - exists 46. vm_compute. tauto.
Qed.
Lemma toy_reorders : reorders toy_tables.
Proof. split; intros; apply Permutation_rev. Qed.

Definition ex_arr : value := VArr (Arr 2 32 1 [2; 1] true [one; one]).
Definition ex_op : value :=
  VObj (Obj 7 3 2 (txt "NativeObject") 140000 true false (txt "Tokenizer") (txt "Tokenizer_0")).
Definition ex_val : value :=
  VDict [(VStr [233; 128512], VList [VNone; VInt (-5); VFloat one; VBytes [0; 200; 65]]);
         (VBytes (txt "k"), VTuple [VSet [VInt 1; VInt 2]; ex_arr; ex_op; VHandle 99]);
         (VInt 3, VBytes (txt "plain"))].

Ltac st := repeat match goal with
  | |- storable _ _ ?v => constructor
  | |- jsonable _ _ ?v => constructor
  | |- no_inf (VArr _) => apply ni_arr
  | |- no_inf _ => constructor
  | |- Forall _ _ => constructor
  | |- distinct _ _ => constructor
  | |- exact toy one => exact toy_one
  | |- _ /\ _ => split
  end.
Lemma ex_storable : storable toy toy_tables ex_val.
Proof.
  unfold ex_val, ex_arr, ex_op.
  st; cbn [fst snd map]; st; try reflexivity; try (unfold is_byte, scalar, code_point, int64, two63; lia);
    try (apply txt_text; reflexivity); try (vm_compute; intuition discriminate).
  - right; right. split; [reflexivity|]. split; [exact toy_one|]. right. split; [cbn; tauto|reflexivity].
  - right; right. split; [reflexivity|]. split; [exact toy_one|]. right. split; [cbn; tauto|reflexivity].
Qed.
Lemma ex_no_inf : no_inf ex_val.
Proof. unfold ex_val, ex_arr, ex_op. st; cbn [fst snd a_code a_data]; st; try reflexivity; vm_compute; discriminate. Qed.

(** ** C58: what is pickled is read back the same.  *)

(** For every storable value (numbers, texts, lists, tuples, sets, dicts, contiguous arrays of
    nine element types, native operators, handles, nested in any way), pickle writes a str and
    reads back from it a value that is the same, whatever order the tables iterate in. *)
Theorem C58_pickle_partial : forall fl tb v, reorders tb -> storable fl tb v ->
  exists u v', pickle_serialize fl v = Ok u /\ pickle_deserialize fl tb u = Ok v' /\ same v v'.
Proof. exact pickle_ok. Qed.
Print Assumptions C58_pickle_partial.
Example C58_pickle_example : reorders toy_tables /\ storable toy toy_tables ex_val.
Proof. split; [exact toy_reorders|exact ex_storable]. Qed.

(** The same for the file of a session, if no float is infinite or NaN. *)
Theorem C58_session_partial : forall fl tb v, reorders tb -> storable fl tb v -> no_inf v ->
  exists file v', session_save fl v = Ok file /\ session_load fl tb file = Ok v' /\ same v v'.
Proof. exact session_ok. Qed.
Print Assumptions C58_session_partial.
Example C58_session_example : storable toy toy_tables ex_val /\ no_inf ex_val.
Proof. split; [exact ex_storable|exact ex_no_inf]. Qed.

(** Values that can be keys come back equal, not only the same up to order. *)
Theorem C58_keys : forall fl tb v, reorders tb -> storable fl tb v -> hashable v = true ->
  exists u, pickle_serialize fl v = Ok u /\ pickle_deserialize fl tb u = Ok v.
Proof.
  intros fl tb v Hr Hs Hh. destruct (pickle_ok fl tb v Hr Hs) as (u & v' & E & D & S).
  exists u. split; [assumption|]. rewrite D. f_equal.
  clear - S Hh. revert v' S Hh. induction v using value_ind'; intros v' S Hh; cbn [hashable] in Hh; try discriminate;
    inversion S; subst; try reflexivity.
  f_equal. match goal with H : Forall2 same l _ |- _ => rename H into F end. clear S.
  induction F as [|x y l l' Hxy _ IH]; [reflexivity|]. cbn [forallb] in Hh. apply andb_true_iff in Hh.
  inversion H as [|? ? Hx Hl]; subst. f_equal; [apply Hx|apply IH]; tauto.
Qed.
Print Assumptions C58_keys.
Example C58_keys_example :
  storable toy toy_tables (VTuple [VInt 1; VStr [233]; VTuple [VBytes [0]; VFloat one]])
  /\ hashable (VTuple [VInt 1; VStr [233]; VTuple [VBytes [0]; VFloat one]]) = true.
Proof.
  split; [|reflexivity]. st; try (unfold is_byte, scalar, code_point, int64, two63; lia); reflexivity.
Qed.

(** The name of every data type (code int, uint, float or bfloat, 1 to 255 bits, any 16 bit
    number of lanes) is read back as that type. *)
Theorem C58_dtype : forall c b n, In c [0; 1; 2; 4] -> 1 <= b <= 255 -> 0 <= n <= 65535 ->
  exists s, dtype_text c b n = Ok s /\ dtype_parse s = Ok (c, b, n).
Proof. exact dtype_round. Qed.
Print Assumptions C58_dtype.
Example C58_dtype_example : dtype_text 4 16 8 = Ok (txt "bfloat16x8") /\ dtype_text 1 1 1 = Ok (txt "bool")
  /\ dtype_text 1 1 2 = Ok (txt "uint1x2") /\ dtype_parse (txt "float64") = Ok (2, 64, 1).
Proof. repeat split. Qed.

(** Refuted: a function is pickled without complaint (its address is written), and what was
    written cannot be read. *)
Theorem C58_function_refuted : forall fl tb p, 0 <= p < 2 ^ 64 ->
  exists u, pickle_serialize fl (VFunc p) = Ok u /\ pickle_deserialize fl tb u = Exn CheckFailed.
Proof.
  intros fl tb p Hp.
  set (j := JObj [(txt "version", JStr (txt "v1.0"));
                  (txt "doc", node (txt "MATXFunctionHandle") (JObj [(txt "ptr", JInt p)]))]).
  destruct (to_string_reads fl true j false false 2) as (t & Et & Tt & Ft & _).
  { constructor. constructor; [split; [apply txt_text; reflexivity|constructor; apply txt_text; reflexivity]|].
    constructor; [split; [apply txt_text; reflexivity|]|constructor]. cbn [snd]. apply node_good; [reflexivity|].
    constructor. constructor; [|constructor]. split; [apply txt_text; reflexivity|]. cbn [snd]. constructor.
    unfold two63, two64. lia. }
  { auto. }
  { right. eexists. reflexivity. }
  destruct (text_decode t Tt) as (u & Eu & Es & _).
  exists u. split.
  - change (pickle_serialize fl (VFunc p)) with (let! s := to_string fl j false false 2 in utf8_decode s).
    rewrite Et. exact Eu.
  - unfold pickle_deserialize. rewrite Es. cbn [bind]. unfold deserialize. rewrite Ft. reflexivity.
Qed.
Print Assumptions C58_function_refuted.

(** Refuted: a session that holds an infinite float or NaN cannot be saved, although pickle
    writes and reads it. *)
Theorem C58_session_nonfinite_refuted : forall fl tb f, reorders tb -> exact fl f ->
  (f / 2 ^ 52) mod 2048 = 2047 ->
  session_save fl (VFloat f) = Exn CheckFailed
  /\ exists u v', pickle_serialize fl (VFloat f) = Ok u /\ pickle_deserialize fl tb u = Ok v'
     /\ same (VFloat f) v'.
Proof.
  intros fl tb f Hr He Hf. split; [|apply pickle_ok; [assumption|constructor; assumption]].
  change (session_save fl (VFloat f)) with
    (to_string fl (node (txt "float") (JDouble f)) true false 2).
  unfold to_string, node, style_of. rewrite wvalue_obj.
  assert (E : wmembers fl (Style false (Some 2) false false) 0 true [(txt "t", JStr (txt "float")); (txt "v", JDouble f)] = None).
  { cbn [wmembers wvalue]. unfold finite. rewrite Hf. reflexivity. }
  rewrite E. reflexivity.
Qed.
Print Assumptions C58_session_nonfinite_refuted.
Example C58_session_nonfinite_example : exact toy infinity /\ (infinity / 2 ^ 52) mod 2048 = 2047.
Proof. split; [exact toy_infinity|reflexivity]. Qed.

(** Refuted: arrays of element types an array can have are refused: uint32 (and uint64,
    bool), and views that are not contiguous. *)
Theorem C58_array_types_refuted : forall fl sh xs,
  pickle_serialize fl (VArr (Arr 1 32 1 sh true xs)) = Exn CheckFailed
  /\ pickle_serialize fl (VArr (Arr 1 64 1 sh true xs)) = Exn CheckFailed
  /\ pickle_serialize fl (VArr (Arr 1 1 1 sh true xs)) = Exn CheckFailed
  /\ forall c b, pickle_serialize fl (VArr (Arr c b 1 sh false xs)) = Exn CheckFailed.
Proof. intros. repeat split. Qed.
Print Assumptions C58_array_types_refuted.

(** Refuted: text that pickle did not write is not always refused: a document that is no
    object, or an int whose value is a string, is read outside its memory. *)
Theorem C58_malformed_refuted : forall fl tb,
  pickle_deserialize fl tb (txt "[]") = UB
  /\ pickle_deserialize fl tb
       ([123; 34] ++ txt "version" ++ [34; 58; 34] ++ txt "v1.0" ++ [34; 44; 34] ++ txt "doc" ++ [34; 58; 123; 34]
        ++ txt "t" ++ [34; 58; 34] ++ txt "int" ++ [34; 44; 34] ++ txt "v" ++ [34; 58; 34; 120; 34; 125; 125]) = UB.
Proof. intros. split; reflexivity. Qed.
Print Assumptions C58_malformed_refuted.

(** ** C59: json.dumps and json.loads *)

(** For every list or dict of None, ints, floats, strs, lists and dicts with str keys, any
    indent and either setting of ensure_ascii: dumps writes a str and loads reads the same
    value from it (an indent given: if no float is infinite or NaN). *)
Theorem C59_dumps_loads_partial : forall fl tb v indent ascii, reorders tb -> jsonable fl tb v ->
  (exists l, v = VList l) \/ (exists l, v = VDict l) -> indent = -1 \/ no_inf v ->
  exists u v', json_dumps fl v indent ascii = Ok u /\ json_loads fl tb u = Ok v' /\ same v v'.
Proof. exact json_ok. Qed.
Print Assumptions C59_dumps_loads_partial.
Definition ex_json : value :=
  VDict [(VStr [34; 233], VList [VNone; VInt (-5); VFloat one; VStr [10; 128512; 92]; VList []]);
         (VStr [], VDict [])].
Lemma ex_jsonable : jsonable toy toy_tables ex_json.
Proof.
  unfold ex_json. st; cbn [fst snd map]; st; try reflexivity;
    try (unfold int64, two63; lia); try (unfold scalar, code_point; lia).
  - eexists. split; [reflexivity|]. st; unfold scalar, code_point; lia.
  - eexists. split; [reflexivity|]. constructor.
Qed.
Example C59_dumps_loads_example : reorders toy_tables /\ jsonable toy toy_tables ex_json /\ no_inf ex_json
  /\ exists u, json_dumps toy ex_json 4 true = Ok u /\ List.length u = 135%nat.
Proof.
  split; [exact toy_reorders|]. split; [exact ex_jsonable|]. split.
  - unfold ex_json. st; cbn [fst snd]; st. vm_compute. discriminate.
  - eexists. split; vm_compute; reflexivity.
Qed.

(** The same for json.dumps of compiled code. *)
Theorem C59_compiled_dumps_loads_partial : forall fl tb v indent ascii, reorders tb -> jsonable fl tb v ->
  (exists l, v = VList l) \/ (exists l, v = VDict l) -> indent = -1 \/ no_inf v ->
  exists u v', kernel_json_dumps fl v indent ascii = Ok u /\ json_loads fl tb u = Ok v' /\ same v v'.
Proof. intros fl tb v indent ascii. exact (json_ok fl tb v indent (negb (indent =? 0))). Qed.
Print Assumptions C59_compiled_dumps_loads_partial.

(** With ensure_ascii all that is written is ASCII. *)
Theorem C59_ascii_partial : forall fl tb v indent u, reorders tb -> jsonable fl tb v ->
  (exists l, v = VList l) \/ (exists l, v = VDict l) ->
  json_dumps fl v indent true = Ok u -> Forall (fun c => 0 <= c < 128) u.
Proof. exact json_ascii. Qed.
Print Assumptions C59_ascii_partial.
Example C59_ascii_example : exists u, json_dumps toy (VList [VStr [233; 128512]]) (-1) true = Ok u
  /\ u = [91; 34] ++ [92; 117] ++ txt "00E9" ++ [92; 117] ++ txt "D83D" ++ [92; 117] ++ txt "DE00" ++ [34; 93].
Proof. eexists. split; vm_compute; reflexivity. Qed.

(** Of several members of one name the last one counts, as in Python: it and no other is
    found under that key. *)
Theorem C59_last_member_counts : forall tb a k j b u x d, reorders tb ->
  (forall u w, keq tb (VStr u) (VStr w) = eqs u w) ->
  from_json tb (JObj (a ++ (k, j) :: b)) = Ok (VDict d) ->
  utf8_decode k = Ok u -> from_json tb j = Ok x ->
  (forall k' j', In (k', j') b -> utf8_decode k' <> Ok u) ->
  forall y, In (VStr u, y) d <-> y = x.
Proof. intros tb a k j b u x d Hr Hk. exact (last_counts tb Hk a k j b u x d Hr). Qed.
Print Assumptions C59_last_member_counts.
Example C59_last_member_example : json_loads toy toy_tables
  ([123; 34; 97; 34; 58; 49; 44; 34; 98; 34; 58; 50; 44; 34; 97; 34; 58; 51; 125]) =
  Ok (VDict [(VStr [98], VInt 2); (VStr [97], VInt 3)]).
Proof. vm_compute. reflexivity. Qed.

(** What loads makes of ints: those of 64 signed bits are read as they are written; those
    from 2^63 to 2^64 - 1 become negative (refuting that loads reads what is written). *)
Theorem C59_big_int_refuted : forall fl tb z, two63 <= z < two64 ->
  json_loads fl tb (put_int z) = Ok (VInt (z - two64)).
Proof.
  intros fl tb z Hz.
  assert (Hr : - two63 <= z < two64) by (unfold two63 in *; lia).
  pose proof (reads_doc fl (JInt z) (put_int z) (reads_int fl z Hr)) as D.
  unfold json_loads. rewrite utf8_encode_ok. cbn [bind].
  assert (Ha : asc (put_int z)).
  { apply Forall_forall. intros c Hc. destruct (put_int_token z Hr) as (Et & _).
    pose proof (int_token_chars _ _ _ Et Hc). lia. }
  assert (Eg : greedy_encode (put_int z) = put_int z).
  { pose proof (asc_decode _ Ha) as Hd. symmetry. apply wf_fun.
    clear - Ha. induction Ha as [|c s Hc _ IH]; [constructor|].
    change (wf ([c] ++ s) ([c] ++ s)). apply wf_app; [|exact IH].
    change (wf [c] ([c] ++ [])). constructor; [constructor; lia|constructor]. }
  rewrite Eg, D. cbn [bind from_json]. do 2 f_equal. unfold wraps64, two63, two64 in *.
  symmetry. replace ((z + 2 ^ 63) mod 2 ^ 64) with (z + 2 ^ 63 - 2 ^ 64); [lia|].
  apply (Z.mod_unique _ _ 1); lia.
Qed.
Print Assumptions C59_big_int_refuted.
Example C59_big_int_example : forall fl tb,
  json_loads fl tb (txt "18446744073709551615") = Ok (VInt (-1)).
Proof. intros. exact (C59_big_int_refuted fl tb 18446744073709551615 ltac:(unfold two63, two64; lia)). Qed.

(** Refuted: a str that is not inside a list or dict is written without quotes or escapes,
    so loads reads something else. *)
Theorem C59_top_str_refuted : forall fl tb u indent ascii, Forall scalar u ->
  json_dumps fl (VStr u) indent ascii = Ok u
  /\ json_loads fl tb (txt "1") = Ok (VInt 1).
Proof.
  intros fl tb u indent ascii Hu. split; [|reflexivity].
  unfold json_dumps. cbn [to_json]. rewrite utf8_encode_ok. cbn [bind].
  destruct (indent =? -1); cbn [to_string bind]; apply utf8_decode_wf, greedy_encode_wf; assumption.
Qed.
Print Assumptions C59_top_str_refuted.

(** Refuted: None is written as nothing, which loads refuses. *)
Theorem C59_top_none_refuted : forall fl tb indent ascii,
  json_dumps fl VNone indent ascii = Ok [] /\ json_loads fl tb [] = Exn RuntimeError.
Proof. intros. unfold json_dumps. cbn [to_json bind to_string]. destruct (indent =? -1); split; reflexivity. Qed.
Print Assumptions C59_top_none_refuted.

(** Refuted: a NaN or infinity is written without an indent, and raises with one. *)
Theorem C59_indent_nonfinite_refuted : forall fl f indent ascii, (f / 2 ^ 52) mod 2048 = 2047 -> indent <> -1 ->
  json_dumps fl (VList [VFloat f]) indent ascii = Exn CheckFailed.
Proof.
  intros fl f indent ascii Hf Hi. unfold json_dumps. replace (indent =? -1) with false by lia.
  change (to_json fl (VList [VFloat f])) with (@Ok json (JArr [JDouble f])). cbn [bind].
  unfold to_string, style_of. destruct ascii; rewrite wvalue_arr; cbn [witems wvalue]; unfold finite; rewrite Hf; reflexivity.
Qed.
Print Assumptions C59_indent_nonfinite_refuted.

(** Refuted: without ensure_ascii the indent that is asked for is not used. *)
Theorem C59_indent_refuted : forall fl v i k, i <> -1 -> k <> -1 ->
  json_dumps fl v i false = json_dumps fl v k false.
Proof.
  intros fl v i k Hi Hk. unfold json_dumps. replace (i =? -1) with false by lia.
  replace (k =? -1) with false by lia. reflexivity.
Qed.
Print Assumptions C59_indent_refuted.

(** Refuted: compiled code does not look at ensure_ascii; with indent 0 it writes what is not
    ASCII although it is asked not to. *)
Theorem C59_compiled_ascii_refuted :
  (forall fl v indent a b, kernel_json_dumps fl v indent a = kernel_json_dumps fl v indent b)
  /\ forall fl, kernel_json_dumps fl (VList [VStr [233]]) 0 true = Ok [91; 10; 32; 32; 34; 233; 34; 10; 93].
Proof. split; [reflexivity|]. intros. vm_compute. reflexivity. Qed.
Print Assumptions C59_compiled_ascii_refuted.

(** Refuted: byte strings, which json refuses in Python, are written like strs. *)
Theorem C59_bytes_refuted : forall fl u indent ascii,
  json_dumps fl (VList [VBytes (greedy_encode u)]) indent ascii = json_dumps fl (VList [VStr u]) indent ascii.
Proof.
  intros. unfold json_dumps.
  change (to_json fl (VList [VStr u])) with
    (let! js := (let! y := (let! s := utf8_encode u in Ok (JStr s)) in let! ys := Ok [] in Ok (y :: ys)) in Ok (JArr js)).
  rewrite utf8_encode_ok. reflexivity.
Qed.
Print Assumptions C59_bytes_refuted.
