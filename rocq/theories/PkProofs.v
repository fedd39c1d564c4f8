(** Values written by ToJsonStruct and ToJson are read back by FromJsonStruct and FromJson. *)
From Coq Require Import Permutation String.
From Verif Require Import Base Utf8Model Utf8Spec Utf8Proofs FmtModel FmtSpec FmtProofs NameProofs
  IntProofs PkModel PkSpec PkText.
Close Scope string_scope.
Open Scope list_scope.
Open Scope Z_scope.
Notation length := List.length.

Section ValueInd.
  Variable P : value -> Prop.
  Hypothesis Hnone : P VNone.
  Hypothesis Hint : forall z, P (VInt z).
  Hypothesis Hfloat : forall f, P (VFloat f).
  Hypothesis Hbytes : forall s, P (VBytes s).
  Hypothesis Hstr : forall u, P (VStr u).
  Hypothesis Hlist : forall l, Forall P l -> P (VList l).
  Hypothesis Htuple : forall l, Forall P l -> P (VTuple l).
  Hypothesis Hset : forall l, Forall P l -> P (VSet l).
  Hypothesis Hdict : forall l, Forall (fun p => P (fst p) /\ P (snd p)) l -> P (VDict l).
  Hypothesis Harr : forall a, P (VArr a).
  Hypothesis Hobj : forall o, P (VObj o).
  Hypothesis Hhandle : forall p, P (VHandle p).
  Hypothesis Hfunc : forall p, P (VFunc p).
  Hypothesis Hother : forall n, P (VOther n).
  Fixpoint value_ind' (v : value) : P v :=
    let all := fix go l : Forall P l :=
      match l with [] => Forall_nil _ | x :: r => Forall_cons _ (value_ind' x) (go r) end in
    match v with
    | VNone => Hnone | VInt z => Hint z | VFloat f => Hfloat f | VBytes s => Hbytes s
    | VStr u => Hstr u
    | VList l => Hlist l (all l) | VTuple l => Htuple l (all l) | VSet l => Hset l (all l)
    | VDict l => Hdict l ((fix go l : Forall (fun p => P (fst p) /\ P (snd p)) l :=
        match l with
        | [] => Forall_nil _
        | x :: r => Forall_cons _ (conj (value_ind' (fst x)) (value_ind' (snd x))) (go r)
        end) l)
    | VArr a => Harr a | VObj o => Hobj o | VHandle p => Hhandle p | VFunc p => Hfunc p
    | VOther n => Hother n
    end.
End ValueInd.

Lemma mmap_ok {A B} (f : A -> res B) l l' : Forall2 (fun x y => f x = Ok y) l l' -> mmap f l = Ok l'.
Proof.
  induction 1 as [|x y l l' H _ IH]; [reflexivity|].
  change (mmap f (x :: l)) with (let! y := f x in let! ys := mmap f l in Ok (y :: ys)).
  rewrite H, IH. reflexivity.
Qed.
Lemma mmap_map {A B} (f : A -> res B) (g : B -> A) l : Forall (fun y => f (g y) = Ok y) l ->
  mmap f (map g l) = Ok l.
Proof. intros H. apply mmap_ok. induction H; constructor; assumption. Qed.
Lemma Forall2_exists {A B} (R : A -> B -> Prop) l : Forall (fun x => exists y, R x y) l -> exists l', Forall2 R l l'.
Proof.
  induction 1 as [|x l (y & H) _ (l' & IH)]; [exists []; constructor|]. exists (y :: l'). constructor; assumption.
Qed.
Lemma Forall2_impl {A B} (R Q : A -> B -> Prop) l l' : (forall x y, R x y -> Q x y) -> Forall2 R l l' -> Forall2 Q l l'.
Proof. intros H. induction 1; constructor; auto. Qed.
Lemma Forall2_len {A B} (R : A -> B -> Prop) l l' : Forall2 R l l' -> length l = length l'.
Proof. induction 1; cbn; congruence. Qed.

Lemma depth_in l j : In j l -> (depth j < depth (JArr l))%nat.
Proof.
  cbn [depth]. induction l as [|x l IH]; [contradiction|]. intros [->|H]; cbn [fold_right]; [lia|].
  specialize (IH H). lia.
Qed.
Lemma cstr_id s : ~ In 0 s -> cstr s = s.
Proof.
  induction s as [|c s IH]; [reflexivity|]. intros H. cbn [cstr In] in *.
  destruct (Z.eqb_spec c 0); [exfalso; auto|]. rewrite IH by auto. reflexivity.
Qed.

Definition good (fl : flt) (tb : tables) (v : value) (j : json) : Prop :=
  to_struct v = Ok j
  /\ (forall nan, nan = true \/ no_inf v -> jgood fl nan j)
  /\ (exists m, j = JObj m)
  /\ forall f, (depth j <= f)%nat -> exists v', from_struct fl tb f j = Ok v' /\ same v v'
     /\ (hashable v = true -> v' = v).

Definition node (t : list Z) (p : json) : json := JObj [(txt "t", JStr t); (txt "v", p)].
Lemma txt_text s : forallb (fun a => Z.leb a 127) (txt s) = true -> utf8_text (txt s).
Proof.
  intros H. apply text_ascii. rewrite forallb_forall in H. apply Forall_forall. intros c Hc.
  specialize (H c Hc). unfold txt in Hc. apply in_map_iff in Hc. destruct Hc as (a & <- & _). lia.
Qed.
Lemma node_good fl nan s p : forallb (fun a => Z.leb a 127) (txt s) = true -> jgood fl nan p ->
  jgood fl nan (node (txt s) p).
Proof.
  intros H Hp. constructor. repeat constructor; cbn [fst snd]; try assumption; apply txt_text; try reflexivity; assumption.
Qed.
Lemma node_depth t p f : (depth (node t p) <= f)%nat -> exists g, f = S g /\ (depth p <= g)%nat.
Proof. cbn [node depth fold_right snd]. intros H. destruct f as [|g]; [lia|]. exists g. split; [reflexivity|lia]. Qed.

(** *** Leaves *)

Lemma good_none fl tb : good fl tb VNone (node (txt "nullptr") JNull).
Proof.
  split; [reflexivity|]. split; [intros; apply node_good; [reflexivity|constructor]|].
  split; [eexists; reflexivity|]. intros f Hf. apply node_depth in Hf. destruct Hf as (g & -> & _).
  exists VNone. repeat split. constructor.
Qed.
Lemma good_int fl tb z : int64 z -> good fl tb (VInt z) (node (txt "int") (JInt z)).
Proof.
  intros H. split; [reflexivity|].
  split; [intros; apply node_good; [reflexivity|constructor; unfold int64, two63, two64 in *; lia]|].
  split; [eexists; reflexivity|]. intros f Hf. apply node_depth in Hf. destruct Hf as (g & -> & _).
  exists (VInt z). split; [|split; [constructor|reflexivity]].
  change (from_struct fl tb (S g) (node (txt "int") (JInt z))) with (let! z := get_int64 (JInt z) in Ok (VInt z)).
  cbn [get_int64]. replace (int64b z) with true; [reflexivity|]. unfold int64b, int64 in *. lia.
Qed.
Lemma good_float fl tb x : exact fl x -> good fl tb (VFloat x) (node (txt "float") (JDouble x)).
Proof.
  intros H. split; [reflexivity|]. split.
  { intros nan Hn. apply node_good; [reflexivity|]. constructor; [assumption|].
    destruct Hn as [ -> | Hn]; [auto|]. right. inversion Hn; subst. unfold finite.
    replace (_ =? 2047) with false; [reflexivity|]. symmetry. apply Z.eqb_neq. assumption. }
  split; [eexists; reflexivity|]. intros f Hf. apply node_depth in Hf. destruct Hf as (g & -> & _).
  exists (VFloat x). repeat split. constructor.
Qed.
Lemma good_bytes fl tb s : Forall is_byte s -> good fl tb (VBytes s) (node (txt "String") (bytes_json s)).
Proof.
  intros H. split; [reflexivity|]. split; [|split; [eexists; reflexivity|]].
  - intros nan _. apply node_good; [reflexivity|]. unfold bytes_json.
    destruct (existsb _ s) eqn:E.
    + constructor. apply Forall_forall. intros j Hj. apply in_map_iff in Hj. destruct Hj as (c & <- & Hc).
      rewrite Forall_forall in H. specialize (H c Hc). constructor. unfold is_byte, two63, two64 in *. lia.
    + constructor. apply text_ascii. apply Forall_forall. intros c Hc. rewrite Forall_forall in H.
      specialize (H c Hc). unfold is_byte in H. split; [lia|].
      destruct (Z.leb_spec c 127); [assumption|]. exfalso.
      assert (existsb (fun c => (127 <=? c) || (c =? 0)) s = true); [|congruence].
      apply existsb_exists. exists c. split; [assumption|lia].
  - intros f Hf. apply node_depth in Hf. destruct Hf as (g & -> & _).
    exists (VBytes s). split; [|split; [constructor|reflexivity]].
    change (from_struct fl tb (S g) (node (txt "String") (bytes_json s))) with
      (match bytes_json s with
       | JStr s => Ok (VBytes s)
       | _ => let! l := get_array (bytes_json s) in let! bs := mmap get_uint l in Ok (VBytes (map (fun b => b mod 256) bs))
       end).
    unfold bytes_json. destruct (existsb _ s); [|reflexivity]. cbn [get_array bind].
    rewrite mmap_map.
    + cbn [bind]. do 2 f_equal. induction H as [|c s Hc Hs IH]; [reflexivity|]. cbn [map]. rewrite IH.
      f_equal. apply Z.mod_small. exact Hc.
    + eapply Forall_impl; [|exact H]. intros c Hc. cbn [get_uint]. unfold between, is_byte in *.
      replace ((0 <=? c) && (c <=? 2 ^ 32 - 1)) with true by lia. reflexivity.
Qed.
Lemma scalar_text u : Forall scalar u -> utf8_text (greedy_encode u).
Proof. intros H. exists u. apply greedy_encode_wf. assumption. Qed.
Lemma good_str fl tb u : Forall scalar u -> good fl tb (VStr u) (node (txt "Unicode") (JStr (greedy_encode u))).
Proof.
  intros H. split; [cbn [to_struct]; rewrite utf8_encode_ok; reflexivity|].
  split; [intros; apply node_good; [reflexivity|constructor; apply scalar_text; assumption]|].
  split; [eexists; reflexivity|]. intros f Hf. apply node_depth in Hf. destruct Hf as (g & -> & _).
  exists (VStr u). split; [|split; [constructor|reflexivity]].
  change (from_struct fl tb (S g) (node (txt "Unicode") (JStr (greedy_encode u)))) with
    (let! u := utf8_decode (greedy_encode u) in Ok (VStr u)).
  rewrite (utf8_decode_wf u) by (apply greedy_encode_wf; assumption). reflexivity.
Qed.
Lemma good_handle fl tb p : 0 <= p < 2 ^ 64 ->
  good fl tb (VHandle p) (node (txt "handle") (JObj [(txt "user_ptr", JInt p)])).
Proof.
  intros H. split; [reflexivity|]. split.
  { intros; apply node_good; [reflexivity|]. constructor. repeat constructor; cbn [fst snd].
    - apply txt_text. reflexivity.
    - unfold two63. lia.
    - unfold two64. lia. }
  split; [eexists; reflexivity|]. intros f Hf. apply node_depth in Hf. destruct Hf as (g & -> & _).
  exists (VHandle p). split; [|split; [constructor|discriminate]].
  change (from_struct fl tb (S g) (node (txt "handle") (JObj [(txt "user_ptr", JInt p)]))) with
    (let! p := match is_uint64 (JInt p) with Some a => Ok a | None => Exn CheckFailed end in Ok (VHandle p)).
  cbn [is_uint64]. unfold between. change two64 with (2 ^ 64).
  replace ((0 <=? p) && (p <=? 2 ^ 64 - 1)) with true by lia. reflexivity.
Qed.

Definition obj_members (o : obj) : list (list Z * json) :=
  [(txt "tag", JInt (o_tag o)); (txt "type", JInt (o_kind o)); (txt "class_name", JStr (o_cls o));
   (txt "var_num", JInt (o_vars o)); (txt "ud_ptr", JInt (o_addr o));
   (txt "is_native_op", JBool (o_native o)); (txt "is_jit_object", JBool (o_jit o));
   (txt "native_class_name", JStr (o_class o)); (txt "native_instance_name", JStr (o_name o))].
Lemma obj_of_members tag vars cls addr jit class name : 0 <= tag < 2 ^ 32 -> 0 <= vars < 2 ^ 32 ->
  ~ In 0 class -> ~ In 0 name ->
  obj_of (JObj (obj_members (Obj tag vars 2 cls addr true jit class name))) =
  Ok (Obj tag vars 2 (txt "NativeObject") 0 true jit class name).
Proof.
  intros Ht Hv Hc Hn.
  change (obj_of (JObj (obj_members (Obj tag vars 2 cls addr true jit class name)))) with
    (let! tag := match is_uint (JInt tag) with Some a => Ok a | None => Exn CheckFailed end in
     let! vars := match is_uint (JInt vars) with Some a => Ok a | None => Exn CheckFailed end in
     Ok (Obj tag vars 2 (txt "NativeObject") 0 true jit (cstr class) (cstr name))).
  cbn [is_uint]. unfold between. replace ((0 <=? tag) && (tag <=? 2 ^ 32 - 1)) with true by lia.
  replace ((0 <=? vars) && (vars <=? 2 ^ 32 - 1)) with true by lia.
  rewrite !cstr_id by assumption. reflexivity.
Qed.
Lemma good_obj fl tb tag vars cls addr jit class name :
  0 <= tag < 2 ^ 32 -> 0 <= vars < 2 ^ 32 -> 0 <= addr < 2 ^ 64 ->
  utf8_text cls -> utf8_text class -> utf8_text name -> ~ In 0 class -> ~ In 0 name ->
  good fl tb (VObj (Obj tag vars 2 cls addr true jit class name))
    (node (txt "UserData") (JObj (obj_members (Obj tag vars 2 cls addr true jit class name)))).
Proof.
  intros Ht Hv Ha T1 T2 T3 N2 N3. split; [reflexivity|]. split.
  { intros nan _. apply node_good; [reflexivity|]. constructor. unfold obj_members. cbn [o_tag o_vars o_kind o_cls o_addr o_native o_jit o_class o_name].
    repeat constructor; cbn [fst snd]; try assumption; try (apply txt_text; reflexivity);
      unfold two63, two64; lia. }
  split; [eexists; reflexivity|]. intros f Hf. apply node_depth in Hf. destruct Hf as (g & -> & _).
  exists (VObj (Obj tag vars 2 (txt "NativeObject") 0 true jit class name)).
  split; [|split; [constructor; reflexivity|discriminate]].
  change (from_struct fl tb (S g) (node (txt "UserData") (JObj (obj_members (Obj tag vars 2 cls addr true jit class name))))) with
    (let! o := obj_of (JObj (obj_members (Obj tag vars 2 cls addr true jit class name))) in Ok (VObj o)).
  rewrite obj_of_members by assumption. reflexivity.
Qed.

(** *** Arrays *)

Definition arr_members (dt : list Z) (sh : list Z) (js : list json) : list (list Z * json) :=
  [(txt "dtype", JStr dt); (txt "shape", JArr (map JInt sh)); (txt "data", JArr js)].

Lemma element_as fl c b x : element fl c b x -> as_value fl c b (elem_json c x) = Ok x.
Proof.
  intros [(-> & Hb & Hx)|[(-> & Hb & Hx)|(-> & _ & Hb)]]; unfold as_value, elem_json.
  - change (0 =? 2) with false. cbn iota. change (0 =? 1) with false.
    cbn in Hb. destruct Hb as [<-|[<-|[<-|[<-|[]]]]].
    + change (8 =? 64) with false. change (8 =? 32) with false. cbn iota. cbn [get_int]. unfold between.
      change (8 - 1) with 7 in Hx.
      replace ((- 2 ^ 31 <=? x) && (x <=? 2 ^ 31 - 1)) with true by lia. cbn [bind]. f_equal. unfold wraps.
      change (8 - 1) with 7. rewrite Z.mod_small by lia. lia.
    + change (16 =? 64) with false. change (16 =? 32) with false. cbn iota. cbn [get_int]. unfold between.
      change (16 - 1) with 15 in Hx.
      replace ((- 2 ^ 31 <=? x) && (x <=? 2 ^ 31 - 1)) with true by lia. cbn [bind]. f_equal. unfold wraps.
      change (16 - 1) with 15. rewrite Z.mod_small by lia. lia.
    + change (32 =? 64) with false. change (32 =? 32) with true. cbn iota. cbn [get_int]. unfold between.
      change (32 - 1) with 31 in Hx.
      replace ((- 2 ^ 31 <=? x) && (x <=? 2 ^ 31 - 1)) with true by lia. reflexivity.
    + change (64 =? 64) with true. cbn iota. cbn [get_int64]. change (64 - 1) with 63 in Hx.
      replace (int64b x) with true; [reflexivity|]. unfold int64b, two63. lia.
  - change (1 =? 2) with false. cbn iota. change (1 =? 1) with true.
    cbn in Hb. destruct Hb as [<-|[<-|[]]].
    + change (8 =? 64) with false. cbn iota. cbn [get_int]. unfold between.
      replace ((- 2 ^ 31 <=? x) && (x <=? 2 ^ 31 - 1)) with true by lia. cbn [bind]. rewrite Z.mod_small by lia. reflexivity.
    + change (16 =? 64) with false. cbn iota. cbn [get_int]. unfold between.
      replace ((- 2 ^ 31 <=? x) && (x <=? 2 ^ 31 - 1)) with true by lia. cbn [bind]. rewrite Z.mod_small by lia. reflexivity.
  - change (2 =? 2) with true. cbn iota. cbn [get_double bind]. destruct Hb as [->|(Hb & Hn)]; [reflexivity|].
    destruct (b =? 64); [reflexivity|]. rewrite Hn. reflexivity.
Qed.
Lemma element_jgood fl nan c b x : element fl c b x -> (c = 2 -> nan = true \/ finite x = true) ->
  jgood fl nan (elem_json c x).
Proof.
  intros [(-> & Hb & Hx)|[(-> & Hb & Hx)|(-> & He & _)]] Hn; unfold elem_json.
  - change (0 =? 2) with false. cbn iota. constructor. unfold two63, two64.
    cbn in Hb. destruct Hb as [<-|[<-|[<-|[<-|[]]]]]; lia.
  - change (1 =? 2) with false. cbn iota. constructor. unfold two63, two64.
    cbn in Hb. destruct Hb as [<-|[<-|[]]]; lia.
  - change (2 =? 2) with true. cbn iota. constructor; auto.
Qed.
Lemma dtype_ok c b n : element_type c b n -> switched c b n = true /\
  exists s, dtype_text c b n = Ok (txt s) /\ forallb (fun a => Z.leb a 127) (txt s) = true
  /\ dtype_parse (cstr (txt s)) = Ok (c, b, n).
Proof.
  intros (-> & [(-> & H)|[(-> & H)|(-> & H)]]); cbn in H.
  - destruct H as [<-|[<-|[<-|[<-|[]]]]]; (split; [reflexivity|]);
      [exists "int8"%string|exists "int16"%string|exists "int32"%string|exists "int64"%string]; repeat split.
  - destruct H as [<-|[<-|[]]]; (split; [reflexivity|]); [exists "uint8"%string|exists "uint16"%string]; repeat split.
  - destruct H as [<-|[<-|[<-|[]]]]; (split; [reflexivity|]);
      [exists "float16"%string|exists "float32"%string|exists "float64"%string]; repeat split.
Qed.
Lemma good_arr fl tb c b n sh xs : element_type c b n -> Forall (element fl c b) xs ->
  Forall (fun d => 0 <= d < 2 ^ 63) sh -> Z.of_nat (length xs) = fold_right Z.mul 1 sh ->
  exists j, good fl tb (VArr (Arr c b n sh true xs)) j.
Proof.
  intros Ht Hx Hs Hl. destruct (dtype_ok c b n Ht) as (Hsw & s & Ed & Ha & Ep).
  exists (node (txt "NDArray") (JObj (arr_members (txt s) sh (map (elem_json c) xs)))).
  split; [|split; [|split; [eexists; reflexivity|]]].
  - change (to_struct (VArr (Arr c b n sh true xs))) with
      (let! p := let! dt := dtype_text c b n in
                 if switched c b n then Ok (JObj (arr_members dt sh (map (elem_json c) xs))) else Exn CheckFailed in
       Ok (node (txt "NDArray") p)).
    rewrite Ed. cbn [bind]. rewrite Hsw. reflexivity.
  - intros nan Hn. apply node_good; [reflexivity|]. constructor. unfold arr_members.
    constructor; [split; [apply txt_text; reflexivity|constructor; apply txt_text; assumption]|].
    constructor; [split; [apply txt_text; reflexivity|]|].
    { constructor. apply Forall_forall. intros j Hj. apply in_map_iff in Hj. destruct Hj as (d & <- & Hd).
      rewrite Forall_forall in Hs. specialize (Hs d Hd). constructor. unfold two63, two64. lia. }
    constructor; [split; [apply txt_text; reflexivity|]|constructor].
    constructor. apply Forall_forall. intros j Hj. apply in_map_iff in Hj. destruct Hj as (x & <- & Hxx).
    rewrite Forall_forall in Hx. apply (element_jgood fl nan c b); [auto|]. intros ->.
    destruct Hn as [Hn|Hn]; [auto|]. right. inversion Hn as [| | | | |a Hc2 Ha2|a Hc2| | | | | |]; subst; cbn in *; [|congruence].
    rewrite Forall_forall in Ha2. specialize (Ha2 x Hxx). unfold finite.
    apply Bool.negb_true_iff, Z.eqb_neq. assumption.
  - intros f Hf. apply node_depth in Hf. destruct Hf as (g & -> & _).
    exists (VArr (Arr c b n sh true xs)). split; [|split; [constructor|discriminate]].
    change (from_struct fl tb (S g) (node (txt "NDArray") (JObj (arr_members (txt s) sh (map (elem_json c) xs))))) with
      (let! a :=
        (let! (c', b', n') := dtype_parse (cstr (txt s)) in
         let! dims := mmap get_int64 (map JInt sh) in
         if switched c' b' n' then
           let! ys := mmap (as_value fl c' b') (firstn (Z.to_nat (product dims)) (map (elem_json c) xs)) in
           if product dims <? Z.of_nat (length (map (elem_json c) xs)) then Exn IndexError
           else if Z.of_nat (length (map (elem_json c) xs)) <? product dims then UB
           else Ok (Arr c' b' n' dims true ys)
         else Exn CheckFailed) in
       Ok (VArr a)).
    rewrite Ep. cbn [bind]. rewrite mmap_map.
    2:{ eapply Forall_impl; [|exact Hs]. intros d Hd. cbn [get_int64].
        replace (int64b d) with true; [reflexivity|]. unfold int64b, two63 in *. cbv beta in Hd. lia. }
    cbn [bind]. rewrite Hsw. unfold product. rewrite <- Hl, Nat2Z.id, firstn_all2 by (rewrite map_length; lia).
    rewrite mmap_map.
    2:{ eapply Forall_impl; [|exact Hx]. intros x Hxx. apply element_as. assumption. }
    cbn [bind]. rewrite map_length, Z.ltb_irrefl. reflexivity.
Qed.

(** *** Lists, tuples, sets, dicts *)

Lemma same_hash v v' : hashable v = true -> v' = v -> hashable v' = true.
Proof. intros H ->. assumption. Qed.

Lemma goods_struct fl tb l js : Forall2 (good fl tb) l js -> mmap to_struct l = Ok js.
Proof. intros H. apply mmap_ok. eapply Forall2_impl; [|exact H]. intros x y (E & _). exact E. Qed.
Lemma goods_json fl tb l js nan : Forall2 (good fl tb) l js -> nan = true \/ Forall no_inf l ->
  Forall (jgood fl nan) js.
Proof.
  induction 1 as [|x y l js (_ & Hg & _) _ IH]; [constructor|]. intros Hn. constructor.
  - apply Hg. destruct Hn as [Hn|Hn]; [auto|right; inversion Hn; assumption].
  - apply IH. destruct Hn as [Hn|Hn]; [auto|right; inversion Hn; assumption].
Qed.
Lemma goods_read fl tb f l js : Forall2 (good fl tb) l js -> (forall j, In j js -> (depth j <= f)%nat) ->
  exists l', mmap (from_struct fl tb f) js = Ok l' /\ Forall2 same l l'
  /\ (forallb hashable l = true -> l' = l).
Proof.
  induction 1 as [|x y l js (_ & _ & _ & Hg) _ IH]; intros Hd; [exists []; repeat constructor|].
  destruct (Hg f) as (v' & E & Hs & Hh); [apply Hd; now left|].
  destruct IH as (l' & El & Hsl & Hhl); [intros; apply Hd; now right|].
  exists (v' :: l'). split; [|split].
  - change (mmap (from_struct fl tb f) (y :: js)) with
      (let! a := from_struct fl tb f y in let! b := mmap (from_struct fl tb f) js in Ok (a :: b)).
    rewrite E, El. reflexivity.
  - constructor; assumption.
  - cbn [forallb]. intros H. apply andb_true_iff in H. rewrite Hh, Hhl; tauto.
Qed.

Lemma good_list fl tb l js : Forall2 (good fl tb) l js -> good fl tb (VList l) (node (txt "List") (JArr js)).
Proof.
  intros H. split; [|split; [|split; [eexists; reflexivity|]]].
  - change (to_struct (VList l)) with
      (let! p := let! js := mmap to_struct l in Ok (JArr js) in Ok (node (txt "List") p)).
    rewrite (goods_struct _ _ _ _ H). reflexivity.
  - intros nan Hn. apply node_good; [reflexivity|]. constructor. eapply goods_json; [exact H|].
    destruct Hn as [Hn|Hn]; [auto|right; inversion Hn; assumption].
  - intros f Hf. apply node_depth in Hf. destruct Hf as (g & -> & Hg).
    destruct (goods_read fl tb g l js H) as (l' & E & Hs & _).
    { intros j Hj. apply depth_in in Hj. lia. }
    exists (VList l'). split; [|split; [constructor; assumption|discriminate]].
    change (from_struct fl tb (S g) (node (txt "List") (JArr js))) with
      (let! vs := mmap (from_struct fl tb g) js in Ok (VList vs)).
    rewrite E. reflexivity.
Qed.
Lemma good_tuple fl tb l js : Forall2 (good fl tb) l js -> Z.of_nat (length l) < 2 ^ 32 ->
  good fl tb (VTuple l) (node (txt "Tuple") (JObj [(txt "size", JInt (Z.of_nat (length l))); (txt "data", JArr js)])).
Proof.
  intros H Hl. split; [|split; [|split; [eexists; reflexivity|]]].
  - change (to_struct (VTuple l)) with
      (let! p := let! js := mmap to_struct l in
         Ok (JObj [(txt "size", JInt (Z.of_nat (length l))); (txt "data", JArr js)]) in
       Ok (node (txt "Tuple") p)).
    rewrite (goods_struct _ _ _ _ H). reflexivity.
  - intros nan Hn. apply node_good; [reflexivity|]. constructor.
    constructor; [split; [apply txt_text; reflexivity|constructor; unfold two63, two64; lia]|].
    constructor; [split; [apply txt_text; reflexivity|]|constructor].
    constructor. eapply goods_json; [exact H|].
    destruct Hn as [Hn|Hn]; [auto|right; inversion Hn; assumption].
  - intros f Hf. apply node_depth in Hf. destruct Hf as (g & -> & Hg).
    destruct (goods_read fl tb g l js H) as (l' & E & Hs & Hh).
    { intros j Hj. apply depth_in in Hj. cbn [depth fold_right snd] in Hg, Hj. lia. }
    exists (VTuple l'). split; [|split; [constructor; assumption|]].
    + change (from_struct fl tb (S g) (node (txt "Tuple") (JObj [(txt "size", JInt (Z.of_nat (length l))); (txt "data", JArr js)]))) with
        (let! size := match is_uint (JInt (Z.of_nat (length l))) with Some a => Ok a | None => Exn CheckFailed end in
         let! vs := mmap (from_struct fl tb g) js in Ok (VTuple vs)).
      cbn [is_uint]. unfold between. replace ((0 <=? Z.of_nat (length l)) && (Z.of_nat (length l) <=? 2 ^ 32 - 1)) with true by lia.
      cbn [bind]. rewrite E. reflexivity.
    + cbn [hashable]. intros Hx. rewrite Hh by exact Hx. reflexivity.
Qed.

Definition sread (fl : flt) (tb : tables) (f : nat) := fix go (l : list json) (s : list value) : res (list value) :=
  match l with
  | x :: r => let! k := from_struct fl tb f x in let! s' := add tb s k in go r s'
  | [] => Ok s
  end.
Lemma set_add_new tb s k : Forall (fun k' => keq tb k' k = false) s -> set_add tb s k = s ++ [k].
Proof.
  intros H. unfold set_add. replace (existsb _ s) with false; [reflexivity|].
  induction H as [|x s Hx _ IH]; [reflexivity|]. cbn [existsb]. rewrite Hx. exact IH.
Qed.
Lemma sread_ok fl tb f l js : Forall2 (good fl tb) l js -> (forall j, In j js -> (depth j <= f)%nat) ->
  Forall (fun k => hashable k = true) l -> distinct tb l ->
  forall s, (forall a b, In a s -> In b l -> keq tb a b = false) -> sread fl tb f js s = Ok (s ++ l).
Proof.
  induction 1 as [|x y l js (_ & _ & _ & Hg) _ IH]; intros Hd Hh Hdis s Hs; [cbn; rewrite app_nil_r; reflexivity|].
  inversion Hh as [|? ? Hx Hh']; subst. inversion Hdis as [|? ? Hk Hdis']; subst.
  destruct (Hg f) as (v' & E & _ & Hv); [apply Hd; now left|]. specialize (Hv Hx). subst v'.
  cbn [sread]. rewrite E. cbn [bind]. unfold add. rewrite Hx. cbn [bind].
  rewrite set_add_new; [|apply Forall_forall; intros k' Hk'; apply Hs; [assumption|now left]].
  rewrite IH; [|intros; apply Hd; now right|assumption|assumption|].
  - rewrite <- app_assoc. reflexivity.
  - intros a b Ha Hb. apply in_app_or in Ha. destruct Ha as [Ha|[<-|[]]]; [apply Hs; [assumption|now right]|].
    rewrite Forall_forall in Hk. auto.
Qed.
Lemma same_refl_hash v : hashable v = true -> same v v.
Proof.
  induction v using value_ind'; cbn [hashable]; try discriminate; intros Hh; try constructor.
  induction H as [|x l Hx _ IH]; constructor; cbn [forallb] in Hh; apply andb_true_iff in Hh; [apply Hx|apply IH]; tauto.
Qed.
Lemma good_set fl tb l js : reorders tb -> Forall2 (good fl tb) l js -> Forall (fun k => hashable k = true) l -> distinct tb l ->
  good fl tb (VSet l) (node (txt "Set") (JArr js)).
Proof.
  intros Hr H Hh Hdis. split; [|split; [|split; [eexists; reflexivity|]]].
  - change (to_struct (VSet l)) with
      (let! p := let! js := mmap to_struct l in Ok (JArr js) in Ok (node (txt "Set") p)).
    rewrite (goods_struct _ _ _ _ H). reflexivity.
  - intros nan Hn. apply node_good; [reflexivity|]. constructor. eapply goods_json; [exact H|].
    destruct Hn as [Hn|Hn]; [auto|right; inversion Hn; assumption].
  - intros f Hf. apply node_depth in Hf. destruct Hf as (g & -> & Hg).
    exists (VSet (set_order tb l)). split; [|split; [|discriminate]].
    + change (from_struct fl tb (S g) (node (txt "Set") (JArr js))) with
        (let! s := sread fl tb g js [] in Ok (VSet (set_order tb s))).
      rewrite (sread_ok fl tb g l js H); try assumption; [reflexivity| |contradiction].
      intros j Hj. apply depth_in in Hj. lia.
    + apply same_set with (l2 := l); [|apply Hr].
      clear - Hh. induction Hh; constructor; [apply same_refl_hash|]; assumption.
Qed.

Definition dwrite := fix go (l : list (value * value)) : res (list json) :=
  match l with
  | [] => Ok []
  | (k, x) :: r => let! jk := to_struct k in let! jx := to_struct x in let! js := go r in Ok (jk :: jx :: js)
  end.
Definition dread (fl : flt) (tb : tables) (f : nat) := fix go (l : list json) (d : list (value * value)) : res (list (value * value)) :=
  match l with
  | jk :: jx :: r =>
    let! k := from_struct fl tb f jk in
    let! x := from_struct fl tb f jx in
    let! d' := put tb d k x in go r d'
  | _ => Ok d
  end.
Fixpoint flat (ps : list (json * json)) : list json :=
  match ps with [] => [] | (a, b) :: r => a :: b :: flat r end.
Definition good2 fl tb (p : value * value) (q : json * json) :=
  good fl tb (fst p) (fst q) /\ good fl tb (snd p) (snd q).
Lemma dict_set_new tb d k v : Forall (fun p => keq tb (fst p) k = false) d -> dict_set tb d k v = d ++ [(k, v)].
Proof.
  induction 1 as [|(k', v') d Hk _ IH]; [reflexivity|]. cbn [dict_set fst app] in *. rewrite Hk, IH. reflexivity.
Qed.
Lemma dread_ok fl tb f l ps : Forall2 (good2 fl tb) l ps -> (forall j, In j (flat ps) -> (depth j <= f)%nat) ->
  Forall (fun p => hashable (fst p) = true) l -> distinct tb (map fst l) ->
  forall d, (forall a b, In a d -> In b l -> keq tb (fst a) (fst b) = false) ->
  exists l2, dread fl tb f (flat ps) d = Ok (d ++ l2)
  /\ Forall2 (fun p q => same (fst p) (fst q) /\ same (snd p) (snd q)) l l2.
Proof.
  induction 1 as [|(k, x) (jk, jx) l ps ((_ & _ & _ & Hg) & (_ & _ & _ & Hg2)) _ IH]; intros Hd Hh Hdis d Hs.
  { exists []. split; [cbn; rewrite app_nil_r; reflexivity|constructor]. }
  cbn [fst snd] in Hg, Hg2.
  inversion Hh as [|? ? Hx Hh']; subst. cbn [map] in Hdis. inversion Hdis as [|? ? Hk Hdis']; subst.
  destruct (Hg f) as (k' & E & _ & Hv); [apply Hd; now left|]. specialize (Hv Hx). subst k'.
  destruct (Hg2 f) as (x' & E2 & Hx2 & _); [apply Hd; right; now left|].
  cbn [fst] in Hx, Hk.
  destruct (IH ltac:(intros; apply Hd; right; right; assumption) Hh' Hdis' (d ++ [(k, x')])) as (l2 & El & F).
  { intros a b Ha Hb. apply in_app_or in Ha. destruct Ha as [Ha|[<-|[]]]; [apply Hs; [assumption|now right]|].
    rewrite Forall_forall in Hk. apply Hk. apply in_map. assumption. }
  exists ((k, x') :: l2). split.
  - cbn [flat dread]. rewrite E. cbn [bind]. rewrite E2. cbn [bind]. unfold put. rewrite Hx. cbn [bind].
    rewrite dict_set_new; [|apply Forall_forall; intros a Ha; apply (Hs a (k, x)); [assumption|now left]].
    rewrite El, <- app_assoc. reflexivity.
  - constructor; [|assumption]. split; cbn [fst snd]; [apply same_refl_hash|]; assumption.
Qed.
Lemma flat_even ps : Z.of_nat (length (flat ps)) mod 2 = 0.
Proof.
  induction ps as [|(a, b) ps IH]; [reflexivity|]. cbn [flat length].
  replace (Z.of_nat (S (S (length (flat ps))))) with (Z.of_nat (length (flat ps)) + 1 * 2) by lia.
  rewrite Z_mod_plus_full. exact IH.
Qed.
Lemma good_dict fl tb l ps : reorders tb -> Forall2 (good2 fl tb) l ps ->
  Forall (fun p => hashable (fst p) = true) l -> distinct tb (map fst l) ->
  good fl tb (VDict l) (node (txt "Dict") (JArr (flat ps))).
Proof.
  intros Hr H Hh Hdis. split; [|split; [|split; [eexists; reflexivity|]]].
  - change (to_struct (VDict l)) with
      (let! p := let! js := dwrite l in Ok (JArr js) in Ok (node (txt "Dict") p)).
    assert (E : dwrite l = Ok (flat ps)).
    { clear - H. induction H as [|(k, x) (jk, jx) l ps ((E1 & _) & (E2 & _)) _ IH]; [reflexivity|].
      cbn [dwrite flat]. cbn [fst snd] in E1, E2. rewrite E1, E2. cbn [bind]. rewrite IH. reflexivity. }
    rewrite E. reflexivity.
  - intros nan Hn. apply node_good; [reflexivity|]. constructor.
    assert (Hn' : nan = true \/ Forall (fun p => no_inf (fst p) /\ no_inf (snd p)) l)
      by (destruct Hn as [Hn|Hn]; [auto|right; inversion Hn; assumption]).
    clear - H Hn'. induction H as [|(k, x) (jk, jx) l ps ((_ & E1 & _) & (_ & E2 & _)) _ IH]; [constructor|].
    cbn [fst snd] in E1, E2. cbn [flat]. constructor; [|constructor].
    + apply E1. destruct Hn' as [Hn|Hn]; [auto|right; inversion Hn; tauto].
    + apply E2. destruct Hn' as [Hn|Hn]; [auto|right; inversion Hn; tauto].
    + apply IH. destruct Hn' as [Hn|Hn]; [auto|right; inversion Hn; tauto].
  - intros f Hf. apply node_depth in Hf. destruct Hf as (g & -> & Hg).
    destruct (dread_ok fl tb g l ps H) with (d := @nil (value * value)) as (l2 & E & F); try assumption; [|contradiction|].
    { intros j Hj. apply depth_in in Hj. lia. }
    exists (VDict (dict_order tb l2)). split; [|split; [|discriminate]].
    + change (from_struct fl tb (S g) (node (txt "Dict") (JArr (flat ps)))) with
        (if negb (Z.of_nat (length (flat ps)) mod 2 =? 0) then Exn CheckFailed else
         let! s := dread fl tb g (flat ps) [] in Ok (VDict (dict_order tb s))).
      rewrite flat_even. cbn [Z.eqb negb]. rewrite E. reflexivity.
    + apply same_dict with (l2 := l2); [assumption|apply Hr].
Qed.

Lemma storable_good fl tb v : reorders tb -> storable fl tb v -> exists j, good fl tb v j.
Proof.
  intros Hr. induction v using value_ind'; intros Hs; inversion Hs; subst.
  - eexists; apply good_none.
  - eexists; apply good_int; assumption.
  - eexists; apply good_float; assumption.
  - eexists; apply good_bytes; assumption.
  - eexists; apply good_str; assumption.
  - destruct (Forall2_exists (good fl tb) l) as (js & Hj).
    { rewrite Forall_forall in *. auto. }
    eexists; apply good_list; exact Hj.
  - destruct (Forall2_exists (good fl tb) l) as (js & Hj).
    { rewrite Forall_forall in *. auto. }
    eexists; apply good_tuple; [exact Hj|assumption].
  - destruct (Forall2_exists (good fl tb) l) as (js & Hj).
    { rewrite Forall_forall in *. auto. }
    eexists; apply good_set; [assumption|exact Hj|assumption|assumption].
  - destruct (Forall2_exists (good2 fl tb) l) as (ps & Hj).
    { rewrite Forall_forall in *. intros p Hp.
      destruct (H p Hp) as (A & B). destruct (H1 p Hp) as (A' & B').
      destruct (A A') as (j1 & G1). destruct (B B') as (j2 & G2). exists (j1, j2). split; assumption. }
    eexists; apply good_dict; [assumption|exact Hj|assumption|assumption].
  - eapply good_arr; eassumption.
  - eexists; apply good_obj; eassumption.
  - eexists; apply good_handle; assumption.
Qed.

(** *** Data types as text *)

Lemma dec_stops n q : 0 <= n < two64 -> stops q -> strtoul 0 (dec_digits 20 n [] ++ q) = (n, q).
Proof.
  intros Hn Hq. destruct (digits_only_nat _ _ (dec20 _ Hn)) as (_ & V & F & _).
  rewrite strtoul_digits by assumption. f_equal.
  rewrite <- (app_nil_r (dec_digits 20 n [])) in V. rewrite strtoul_digits in V by (assumption || exact Logic.I).
  exact V.
Qed.
Lemma dtype_rest_ok c d b n : 1 <= b <= 255 -> 0 <= n <= 65535 ->
  dtype_rest c d (dec_digits 20 b [] ++ (if n =? 1 then [] else 120 :: dec_digits 20 n [])) = Ok (c, b, n).
Proof.
  intros Hb Hn. unfold dtype_rest. rewrite dec_stops; [|unfold two64; lia|destruct (n =? 1); [exact Logic.I|reflexivity]].
  rewrite (Z.mod_small b) by lia. replace (b =? 0) with false by lia.
  destruct (Z.eqb_spec n 1) as [->|]; [reflexivity|]. change (120 =? 120) with true. cbn iota.
  rewrite <- (app_nil_r (dec_digits 20 n [])), dec_stops by (exact Logic.I || unfold two64; lia).
  rewrite Z.mod_small by lia. reflexivity.
Qed.
Lemma dtype_round c b n : In c [0; 1; 2; 4] -> 1 <= b <= 255 -> 0 <= n <= 65535 ->
  exists s, dtype_text c b n = Ok s /\ dtype_parse s = Ok (c, b, n).
Proof.
  intros Hc Hb Hn. unfold dtype_text. replace (b =? 0) with false by lia.
  destruct ((b =? 1) && (n =? 1) && (c =? 1)) eqn:E.
  { apply andb_true_iff in E. destruct E as (E & E3). apply andb_true_iff in E. destruct E as (E1 & E2).
    apply Z.eqb_eq in E1, E2, E3. subst. eexists. split; reflexivity. }
  destruct Hc as [<-|[<-|[<-|[<-|[]]]]].
  - exists (txt "int" ++ dec_digits 20 b [] ++ (if n =? 1 then [] else 120 :: dec_digits 20 n [])).
    split; [reflexivity|]. exact (dtype_rest_ok 0 32 b n Hb Hn).
  - exists (txt "uint" ++ dec_digits 20 b [] ++ (if n =? 1 then [] else 120 :: dec_digits 20 n [])).
    split; [reflexivity|]. exact (dtype_rest_ok 1 32 b n Hb Hn).
  - exists (txt "float" ++ dec_digits 20 b [] ++ (if n =? 1 then [] else 120 :: dec_digits 20 n [])).
    split; [reflexivity|]. exact (dtype_rest_ok 2 32 b n Hb Hn).
  - exists (txt "bfloat" ++ dec_digits 20 b [] ++ (if n =? 1 then [] else 120 :: dec_digits 20 n [])).
    split; [reflexivity|]. exact (dtype_rest_ok 4 32 b n Hb Hn).
Qed.

(** *** No NUL in what is written *)

Definition nz (t : list Z) : Prop := Forall (fun c => c <> 0) t.
Lemma nz_app a b : nz a -> nz b -> nz (a ++ b).
Proof. intros. apply Forall_app. split; assumption. Qed.
Lemma nz_not t : nz t -> ~ In 0 t.
Proof. unfold nz. rewrite Forall_forall. intros H Hi. exact (H 0 Hi eq_refl). Qed.
Lemma hex_nz d : 0 <= d -> hex d <> 0.
Proof. intros H. unfold hex. destruct (d <? 10); lia. Qed.
Lemma hex4_nz c : 0 <= c -> nz (hex4 c).
Proof.
  intros H. unfold hex4. repeat constructor; try discriminate; apply hex_nz;
    try (apply Z.mod_pos_bound; lia). apply Z.div_pos; lia.
Qed.
Lemma wchars_nz st n s t : wchars st n s = Some t -> Forall (fun c => 0 <= c) s -> nz t.
Proof.
  revert s t. induction n as [|n IH]; intros s t H Hb.
  - destruct s; [|discriminate]. injection H as <-. constructor.
  - destruct s as [|c s]. { injection H as <-. constructor. }
    cbn [wchars] in H.
    destruct (c <? 128) eqn:E.
    + destruct (wchars st n s) as [t'|] eqn:E'; [|discriminate]. injection H as <-.
      inversion Hb; subst. apply nz_app; [|eapply IH; eassumption].
      unfold esc_char. repeat match goal with |- nz (if ?b then _ else _) => destruct b eqn:? end;
        try (repeat constructor; discriminate); [apply hex4_nz; assumption|]. repeat constructor. lia.
    + destruct (s_ascii st || s_valid st) eqn:Ea.
      * destruct (u8_next (c :: s)) as [[cp r]|] eqn:Eu; [|discriminate].
        destruct (wchars st n r) as [t'|] eqn:E'; [|discriminate]. injection H as <-.
        apply u8_next_sound in Eu. destruct Eu as (Es & Hw).
        assert (Hr : Forall (fun c => 0 <= c) r).
        { rewrite Es in Hb. apply Forall_app in Hb. apply Hb. }
        apply nz_app; [|eapply IH; eassumption]. rewrite Es. destruct (s_ascii st).
        -- apply wf_seq_scalar in Hw. unfold scalar, code_point in Hw. unfold escaped.
           destruct (Z.ltb_spec cp 65536); [apply hex4_nz; lia|].
           apply nz_app; apply hex4_nz.
           ++ pose proof (Z.div_pos (cp - 65536) 1024). lia.
           ++ pose proof (Z.mod_pos_bound (cp - 65536) 1024). lia.
        -- rewrite firstn_seq.
           assert (Hp : Forall (fun c => 128 <= c) (greedy_encode_one cp)).
           { apply (seq_high _ _ Hw). clear - Hw Es E. revert Hw Es. generalize (greedy_encode_one cp).
             intros [|x p] Hw Es; [inversion Hw|]. cbn [app] in Es. injection Es as <- _. cbn [hd]. lia. }
           eapply Forall_impl; [|exact Hp]. cbv beta. intros; lia.
      * destruct (wchars st n s) as [t'|] eqn:E'; [|discriminate]. injection H as <-.
        inversion Hb; subst. constructor; [lia|]. eapply IH; eassumption.
Qed.
Lemma wstring_nz st s t : wstring st s = Some t -> utf8_text s -> nz t.
Proof.
  unfold wstring. destruct (wchars st (length s) s) as [t'|] eqn:E; [|discriminate]. intros H Hs. injection H as <-.
  constructor; [discriminate|]. apply nz_app; [|repeat constructor; discriminate].
  eapply wchars_nz; [eassumption|]. apply text_nonneg. assumption.
Qed.
Lemma blanks_nz s : blanks s -> nz s.
Proof. intros H. eapply Forall_impl; [|exact H]. unfold blank. cbv beta. intros; lia. Qed.
Lemma txt_nz s : forallb (fun a => negb (Z.eqb a 0)) s = true -> nz s.
Proof. intros H. apply Forall_forall. intros c Hc. rewrite forallb_forall in H. specialize (H c Hc). lia. Qed.
Lemma wvalue_nz fl nan st j : jgood fl nan j -> forall lvl t, wvalue fl st lvl j = Some t -> nz t.
Proof.
  intros G. revert G. induction j using json_ind'; intros G lvl t E; inversion G; subst.
  - injection E as <-. apply txt_nz. reflexivity.
  - injection E as <-. destruct b; apply txt_nz; reflexivity.
  - injection E as <-. apply Forall_forall. intros c Hc.
    destruct (put_int_token z) as (Et & _); [assumption|]. pose proof (int_token_chars _ _ _ Et Hc). lia.
  - cbn [wvalue] in E. destruct (finite f || s_nan st); [|discriminate]. injection E as <-.
    match goal with H : exact _ _ |- _ => destruct H as (F & _) end.
    eapply Forall_impl; [|exact F]. cbv beta. intros c Hc ->. vm_compute in Hc. repeat destruct Hc as [Hc|Hc]; congruence || contradiction.
  - cbn [wvalue] in E. eapply wstring_nz; eassumption.
  - rewrite wvalue_arr in E. destruct (witems fl st lvl true l) as [b|] eqn:Eb; [|discriminate]. injection E as <-.
    constructor; [discriminate|]. apply nz_app; [|apply nz_app; [apply blanks_nz, close_blanks|repeat constructor; discriminate]].
    match goal with H : Forall (jgood fl nan) l |- _ => rename H into Hg end. clear G.
    revert b Eb. generalize true. induction l as [|x l IH]; intros first b Eb.
    + injection Eb as <-. constructor.
    + cbn [witems] in Eb. destruct (wvalue fl st (S lvl) x) as [a|] eqn:Ea; [|discriminate].
      destruct (witems fl st lvl false l) as [b'|] eqn:Eb'; [|discriminate]. injection Eb as <-.
      inversion H as [|? ? Hx Hl]; subst. inversion Hg as [|? ? Gx Gl]; subst.
      apply nz_app; [destruct first; repeat constructor; discriminate|].
      apply nz_app; [apply blanks_nz, newline_blanks|]. apply nz_app; [eapply Hx; eassumption|]. eapply IH; eassumption.
  - rewrite wvalue_obj in E. destruct (wmembers fl st lvl true l) as [b|] eqn:Eb; [|discriminate]. injection E as <-.
    constructor; [discriminate|]. apply nz_app; [|apply nz_app; [apply blanks_nz, close_blanks|repeat constructor; discriminate]].
    match goal with H : Forall (fun p => utf8_text (fst p) /\ _) l |- _ => rename H into Hg end. clear G.
    revert b Eb. generalize true. induction l as [|(k, x) l IH]; intros first b Eb.
    + injection Eb as <-. constructor.
    + cbn [wmembers] in Eb. destruct (wstring st k) as [kk|] eqn:Ek; [|discriminate].
      destruct (wvalue fl st (S lvl) x) as [a|] eqn:Ea; [|discriminate].
      destruct (wmembers fl st lvl false l) as [b'|] eqn:Eb'; [|discriminate]. injection Eb as <-.
      inversion H as [|? ? Hx Hl]; subst. inversion Hg as [|? ? (Gk & Gx) Gl]; subst. cbn [fst snd] in *.
      apply nz_app; [destruct first; repeat constructor; discriminate|].
      apply nz_app; [apply blanks_nz, newline_blanks|].
      apply nz_app; [eapply wstring_nz; eassumption|].
      apply nz_app; [unfold colon; destruct (s_indent st); repeat constructor; discriminate|].
      apply nz_app; [eapply Hx; eassumption|]. eapply IH; eassumption.
Qed.
Lemma to_string_nz fl nan j pretty escape indent t : jgood fl nan j ->
  (exists l, j = JArr l) \/ (exists l, j = JObj l) ->
  to_string fl j pretty escape indent = Ok t -> nz t.
Proof.
  intros G Hj E. assert (E' : wvalue fl (style_of pretty escape indent) 0 j = Some t).
  { unfold to_string in E. destruct Hj as [(l & ->)|(l & ->)];
      destruct (wvalue fl (style_of pretty escape indent) 0 _); congruence. }
  eapply wvalue_nz; eassumption.
Qed.

(** *** Pickle and session *)

Lemma of_struct_ok fl tb v j : good fl tb v j -> exists v', of_struct fl tb j = Ok v' /\ same v v'.
Proof.
  intros (_ & _ & _ & H). destruct (H (S (depth j))) as (v' & E & Hs & _); [lia|]. exists v'. split; assumption.
Qed.
Lemma serialize_ok fl tb v : reorders tb -> storable fl tb v ->
  exists s v', serialize fl v = Ok s /\ utf8_text s /\ deserialize fl tb s = Ok v' /\ same v v'.
Proof.
  intros Hr Hs. destruct (storable_good fl tb v Hr Hs) as (j & Hg).
  destruct (of_struct_ok _ _ _ _ Hg) as (v' & Ev & Sv). destruct Hg as (E & Hj & _).
  destruct (to_string_reads fl true (JObj [(txt "version", JStr (txt "v1.0")); (txt "doc", j)]) false false 2)
    as (t & Et & Tt & Ft & _).
  { constructor. constructor; [split; [apply txt_text; reflexivity|constructor; apply txt_text; reflexivity]|].
    constructor; [split; [apply txt_text; reflexivity|apply Hj; auto]|constructor]. }
  { auto. }
  { right. eexists. reflexivity. }
  exists t, v'. split; [unfold serialize; rewrite E; exact Et|]. split; [assumption|]. split; [|assumption].
  unfold deserialize. rewrite Ft. exact Ev.
Qed.
Lemma pickle_ok fl tb v : reorders tb -> storable fl tb v ->
  exists u v', pickle_serialize fl v = Ok u /\ pickle_deserialize fl tb u = Ok v' /\ same v v'.
Proof.
  intros Hr Hs. destruct (serialize_ok fl tb v Hr Hs) as (s & v' & E & T & D & S).
  destruct (text_decode s T) as (u & Eu & Es & _).
  exists u, v'. split; [unfold pickle_serialize; rewrite E; exact Eu|]. split; [|assumption].
  unfold pickle_deserialize. rewrite Es. exact D.
Qed.
Lemma session_ok fl tb v : reorders tb -> storable fl tb v -> no_inf v ->
  exists s v', session_save fl v = Ok s /\ session_load fl tb s = Ok v' /\ same v v'.
Proof.
  intros Hr Hs Hn. destruct (storable_good fl tb v Hr Hs) as (j & Hg).
  destruct (of_struct_ok _ _ _ _ Hg) as (v' & Ev & Sv). destruct Hg as (E & Hj & (m & Em) & _).
  destruct (to_string_reads fl false j true false 2) as (t & Et & Tt & Ft & _); [apply Hj; auto|auto|right; eauto|].
  exists t, v'. split; [unfold session_save; rewrite E; exact Et|]. split; [|assumption].
  unfold session_load. rewrite cstr_id; [rewrite Ft; exact Ev|].
  apply nz_not. eapply to_string_nz; [apply (Hj false); auto|right; eauto|exact Et].
Qed.

(** *** json *)

Definition jgoodv (fl : flt) (tb : tables) (v : value) (j : json) : Prop :=
  to_json fl v = Ok j
  /\ (forall nan, nan = true \/ no_inf v -> jgood fl nan j)
  /\ exists v', from_json tb j = Ok v' /\ same v v'.
Definition jwrite (fl : flt) := fix go (l : list (value * value)) : res (list (list Z * json)) :=
  match l with
  | [] => Ok []
  | (k, x) :: r =>
    let! kt := key_text fl k in
    let! jx := to_json fl x in
    let! ms := go r in Ok ((kt, jx) :: ms)
  end.
Definition jread (tb : tables) := fix go (l : list (list Z * json)) (d : list (value * value)) : res (list (value * value)) :=
  match l with
  | [] => Ok d
  | (k, x) :: r =>
    let! u := utf8_decode k in
    let! v := from_json tb x in
    let! d' := put tb d (VStr u) v in go r d'
  end.
Definition jgood2 fl tb (p : value * value) (q : list Z * json) : Prop :=
  (exists u, fst p = VStr u /\ Forall scalar u /\ fst q = greedy_encode u) /\ jgoodv fl tb (snd p) (snd q).
Lemma jread_ok fl tb l ms : Forall2 (jgood2 fl tb) l ms -> distinct tb (map fst l) ->
  forall d, (forall a b, In a d -> In b l -> keq tb (fst a) (fst b) = false) ->
  exists l2, jread tb ms d = Ok (d ++ l2)
  /\ Forall2 (fun p q => same (fst p) (fst q) /\ same (snd p) (snd q)) l l2.
Proof.
  induction 1 as [|(k, x) (jk, jx) l ps ((u & Hk & Hu & Hjk) & (_ & _ & (x' & Ex & Sx))) _ IH]; intros Hdis d Hs.
  { exists []. split; [cbn; rewrite app_nil_r; reflexivity|constructor]. }
  cbn [fst snd] in Hk, Hjk, Ex, Sx. subst k jk.
  cbn [map] in Hdis. inversion Hdis as [|? ? Hk Hdis']; subst. cbn [fst] in Hk.
  destruct (IH Hdis' (d ++ [(VStr u, x')])) as (l2 & El & F).
  { intros a b Ha Hb. apply in_app_or in Ha. destruct Ha as [Ha|[<-|[]]]; [apply Hs; [assumption|now right]|].
    rewrite Forall_forall in Hk. apply Hk. apply in_map. assumption. }
  exists ((VStr u, x') :: l2). split.
  - cbn [jread]. rewrite (utf8_decode_wf u) by (apply greedy_encode_wf; assumption). cbn [bind].
    rewrite Ex. cbn [bind]. unfold put. cbn [hashable bind].
    rewrite dict_set_new; [|apply Forall_forall; intros a Ha; apply (Hs a (VStr u, x)); [assumption|now left]].
    rewrite El, <- app_assoc. reflexivity.
  - constructor; [|assumption]. split; cbn [fst snd]; [constructor|assumption].
Qed.
Lemma jsonable_good fl tb v : reorders tb -> jsonable fl tb v -> exists j, jgoodv fl tb v j.
Proof.
  intros Hr. induction v using value_ind'; intros Hs; inversion Hs; subst.
  - exists JNull. repeat split; [constructor|]. exists VNone. repeat constructor.
  - exists (JInt z). split; [reflexivity|]. split; [constructor; unfold int64, two63, two64 in *; lia|].
    exists (VInt z). split; [|constructor]. cbn [from_json]. rewrite IntProofs.wraps64_small by assumption. reflexivity.
  - exists (JDouble f). split; [reflexivity|]. split; [|exists (VFloat f); repeat constructor].
    intros nan Hn. constructor; [assumption|]. destruct Hn as [ -> | Hn]; [auto|]. right. inversion Hn; subst. unfold finite.
    replace (_ =? 2047) with false; [reflexivity|]. symmetry. apply Z.eqb_neq. assumption.
  - exists (JStr (greedy_encode u)). split; [cbn [to_json]; rewrite utf8_encode_ok; reflexivity|].
    split; [constructor; apply scalar_text; assumption|]. exists (VStr u). split; [|constructor].
    cbn [from_json]. rewrite (utf8_decode_wf u) by (apply greedy_encode_wf; assumption). reflexivity.
  - destruct (Forall2_exists (jgoodv fl tb) l) as (js & Hj).
    { rewrite Forall_forall in *. auto. }
    exists (JArr js). split; [|split].
    + change (to_json fl (VList l)) with (let! js := mmap (to_json fl) l in Ok (JArr js)).
      rewrite (mmap_ok (to_json fl) l js); [reflexivity|]. eapply Forall2_impl; [|exact Hj]. intros x y (E & _). exact E.
    + intros nan Hn. constructor.
      assert (Hn' : nan = true \/ Forall no_inf l) by (destruct Hn as [Hn|Hn]; [auto|right; inversion Hn; assumption]).
      clear - Hj Hn'. induction Hj as [|x y l js (_ & E & _) _ IH]; constructor.
      * apply E. destruct Hn' as [Hn|Hn]; [auto|right; inversion Hn; assumption].
      * apply IH. destruct Hn' as [Hn|Hn]; [auto|right; inversion Hn; assumption].
    + assert (exists l', mmap (from_json tb) js = Ok l' /\ Forall2 same l l') as (l' & El & Sl).
      { clear - Hj. induction Hj as [|x y l js (_ & _ & (x' & Ex & Sx)) _ (l' & El & Sl)]; [exists []; repeat constructor|].
        exists (x' :: l'). split; [|constructor; assumption].
        change (mmap (from_json tb) (y :: js)) with (let! a := from_json tb y in let! b := mmap (from_json tb) js in Ok (a :: b)).
        rewrite Ex, El. reflexivity. }
      exists (VList l'). split; [|constructor; assumption].
      change (from_json tb (JArr js)) with (let! vs := mmap (from_json tb) js in Ok (VList vs)). rewrite El. reflexivity.
  - destruct (Forall2_exists (jgood2 fl tb) l) as (ms & Hj).
    { rewrite Forall_forall in *. intros p Hp.
      destruct (H p Hp) as (_ & B). destruct (H1 p Hp) as ((u & A & A') & B').
      destruct (B B') as (j2 & G2). exists (greedy_encode u, j2). split; [exists u; auto|assumption]. }
    exists (JObj ms). split; [|split].
    + change (to_json fl (VDict l)) with (let! ms := jwrite fl l in Ok (JObj ms)).
      assert (E : jwrite fl l = Ok ms).
      { clear - Hj. induction Hj as [|(k, x) (jk, jx) l ms ((u & Hk & Hu & Hjk) & (E & _)) _ IH]; [reflexivity|].
        cbn [fst snd] in *. subst. cbn [jwrite key_text]. rewrite utf8_encode_ok. cbn [bind]. rewrite E. cbn [bind].
        rewrite IH. reflexivity. }
      rewrite E. reflexivity.
    + intros nan Hn. constructor.
      assert (Hn' : nan = true \/ Forall (fun p => no_inf (fst p) /\ no_inf (snd p)) l)
        by (destruct Hn as [Hn|Hn]; [auto|right; inversion Hn; assumption]).
      clear - Hj Hn'. induction Hj as [|(k, x) (jk, jx) l ms ((u & Hk & Hu & Hjk) & (_ & E & _)) _ IH]; constructor.
      * cbn [fst snd] in *. subst. split; [apply scalar_text; assumption|].
        apply E. destruct Hn' as [Hn|Hn]; [auto|right; inversion Hn; tauto].
      * apply IH. destruct Hn' as [Hn|Hn]; [auto|right; inversion Hn; tauto].
    + destruct (jread_ok fl tb l ms Hj) with (d := @nil (value * value)) as (l2 & E & F); [assumption|contradiction|].
      exists (VDict (dict_order tb l2)). split; [|apply same_dict with (l2 := l2); [assumption|apply Hr]].
      change (from_json tb (JObj ms)) with (let! d := jread tb ms [] in Ok (VDict (dict_order tb d))).
      rewrite E. reflexivity.
Qed.
Lemma json_ok fl tb v indent ascii : reorders tb -> jsonable fl tb v ->
  (exists l, v = VList l) \/ (exists l, v = VDict l) -> indent = -1 \/ no_inf v ->
  exists u v', json_dumps fl v indent ascii = Ok u /\ json_loads fl tb u = Ok v' /\ same v v'.
Proof.
  intros Hr Hs Hc Hi. destruct (jsonable_good fl tb v Hr Hs) as (j & E & Hj & v' & Ev & Sv).
  assert (Hjc : (exists l, j = JArr l) \/ (exists l, j = JObj l)).
  { destruct Hc as [(l & ->)|(l & ->)].
    - left. change (to_json fl (VList l)) with (let! js := mmap (to_json fl) l in Ok (JArr js)) in E.
      destruct (mmap (to_json fl) l); inversion E; subst; eauto.
    - right. change (to_json fl (VDict l)) with (let! ms := jwrite fl l in Ok (JObj ms)) in E.
      destruct (jwrite fl l); inversion E; subst; eauto. }
  assert (exists t, (if indent =? -1 then to_string fl j false ascii 2 else to_string fl j true ascii indent) = Ok t
    /\ utf8_text t /\ from_string fl t = Ok j) as (t & Et & Tt & Ft).
  { destruct (Z.eqb_spec indent (-1)).
    - destruct (to_string_reads fl true j false ascii 2) as (t & A & B & C & _); [apply Hj; auto|auto|assumption|].
      exists t. auto.
    - destruct (to_string_reads fl false j true ascii indent) as (t & A & B & C & _); [apply Hj; tauto|auto|assumption|].
      exists t. auto. }
  destruct (text_decode t Tt) as (u & Eu & Es & _).
  exists u, v'. split; [|split; [|assumption]].
  - unfold json_dumps. rewrite E. cbn [bind]. rewrite Et. exact Eu.
  - unfold json_loads. rewrite Es. cbn [bind]. rewrite Ft. exact Ev.
Qed.

(** *** With ensure_ascii nothing but ASCII is written *)

Definition asc (t : list Z) : Prop := Forall (fun c => 0 <= c < 128) t.
Lemma asc_app a b : asc a -> asc b -> asc (a ++ b).
Proof. intros. apply Forall_app. split; assumption. Qed.
Lemma asc_in s : forallb (fun a => (0 <=? a) && (a <? 128)) s = true -> asc s.
Proof. intros H. apply Forall_forall. intros c Hc. rewrite forallb_forall in H. specialize (H c Hc). lia. Qed.
Lemma hex4_asc c : 0 <= c < 65536 -> asc (hex4 c).
Proof.
  intros H. unfold hex4.
  assert (H1 : 0 <= c / 4096 < 16) by (split; [apply Z.div_pos; lia|apply Z.div_lt_upper_bound; lia]).
  assert (H2 : 0 <= c / 256 mod 16 < 16) by (apply Z.mod_pos_bound; lia).
  assert (H3 : 0 <= c / 16 mod 16 < 16) by (apply Z.mod_pos_bound; lia).
  assert (H4 : 0 <= c mod 16 < 16) by (apply Z.mod_pos_bound; lia).
  apply hex_range in H1, H2, H3, H4. repeat constructor; lia.
Qed.
Lemma escaped_asc cp : scalar cp -> asc (escaped cp).
Proof.
  intros Hw. unfold scalar, code_point in Hw. unfold escaped.
  destruct (Z.ltb_spec cp 65536); [apply hex4_asc; lia|].
  assert (0 <= (cp - 65536) / 1024 < 1024) by (split; [apply Z.div_pos; lia|apply Z.div_lt_upper_bound; lia]).
  assert (0 <= (cp - 65536) mod 1024 < 1024) by (apply Z.mod_pos_bound; lia).
  apply asc_app; apply hex4_asc; lia.
Qed.
Lemma wchars_asc st n s t : s_ascii st = true -> wchars st n s = Some t -> Forall (fun c => 0 <= c) s -> asc t.
Proof.
  intros Ha. revert s t. induction n as [|n IH]; intros s t H Hb.
  - destruct s; [|discriminate]. injection H as <-. constructor.
  - destruct s as [|c s]. { injection H as <-. constructor. }
    cbn [wchars] in H. rewrite Ha in H. cbn [orb] in H.
    destruct (c <? 128) eqn:E.
    + destruct (wchars st n s) as [t'|] eqn:E'; [|discriminate]. injection H as <-.
      inversion Hb; subst. apply asc_app; [|eapply IH; eassumption].
      unfold esc_char. repeat match goal with |- asc (if ?b then _ else _) => destruct b eqn:? end;
        try (apply asc_in; reflexivity); [apply hex4_asc; lia|]. repeat constructor; lia.
    + destruct (u8_next (c :: s)) as [[cp r]|] eqn:Eu; [|discriminate].
      destruct (wchars st n r) as [t'|] eqn:E'; [|discriminate]. injection H as <-.
      apply u8_next_sound in Eu. destruct Eu as (Es & Hw).
      assert (Hr : Forall (fun c => 0 <= c) r).
      { rewrite Es in Hb. apply Forall_app in Hb. apply Hb. }
      apply asc_app; [|eapply IH; eassumption]. apply escaped_asc. eapply wf_seq_scalar; eassumption.
Qed.
Lemma wstring_asc st s t : s_ascii st = true -> wstring st s = Some t -> utf8_text s -> asc t.
Proof.
  intros Ha. unfold wstring. destruct (wchars st (length s) s) as [t'|] eqn:E; [|discriminate]. intros H Hs. injection H as <-.
  constructor; [lia|]. apply asc_app; [|repeat constructor; lia].
  eapply wchars_asc; [eassumption|eassumption|]. apply text_nonneg. assumption.
Qed.
Lemma blanks_asc s : blanks s -> asc s.
Proof. intros H. eapply Forall_impl; [|exact H]. unfold blank. cbv beta. intros; lia. Qed.
Lemma wvalue_asc fl nan st j : s_ascii st = true -> jgood fl nan j -> forall lvl t, wvalue fl st lvl j = Some t -> asc t.
Proof.
  intros Ha G. revert G. induction j using json_ind'; intros G lvl t E; inversion G; subst.
  - injection E as <-. apply asc_in. reflexivity.
  - injection E as <-. destruct b; apply asc_in; reflexivity.
  - injection E as <-. apply Forall_forall. intros c Hc.
    destruct (put_int_token z) as (Et & _); [assumption|]. pose proof (int_token_chars _ _ _ Et Hc). lia.
  - cbn [wvalue] in E. destruct (finite f || s_nan st); [|discriminate]. injection E as <-.
    match goal with H : exact _ _ |- _ => destruct H as (F & _) end.
    eapply Forall_impl; [|exact F]. cbv beta. intros c Hc. apply num_char_in in Hc. lia.
  - cbn [wvalue] in E. eapply wstring_asc; eassumption.
  - rewrite wvalue_arr in E. destruct (witems fl st lvl true l) as [b|] eqn:Eb; [|discriminate]. injection E as <-.
    constructor; [lia|]. apply asc_app; [|apply asc_app; [apply blanks_asc, close_blanks|repeat constructor; lia]].
    match goal with H : Forall (jgood fl nan) l |- _ => rename H into Hg end. clear G.
    revert b Eb. generalize true. induction l as [|x l IH]; intros first b Eb.
    + injection Eb as <-. constructor.
    + cbn [witems] in Eb. destruct (wvalue fl st (S lvl) x) as [a|] eqn:Ea; [|discriminate].
      destruct (witems fl st lvl false l) as [b'|] eqn:Eb'; [|discriminate]. injection Eb as <-.
      inversion H as [|? ? Hx Hl]; subst. inversion Hg as [|? ? Gx Gl]; subst.
      apply asc_app; [destruct first; repeat constructor; lia|].
      apply asc_app; [apply blanks_asc, newline_blanks|]. apply asc_app; [eapply Hx; eassumption|]. eapply IH; eassumption.
  - rewrite wvalue_obj in E. destruct (wmembers fl st lvl true l) as [b|] eqn:Eb; [|discriminate]. injection E as <-.
    constructor; [lia|]. apply asc_app; [|apply asc_app; [apply blanks_asc, close_blanks|repeat constructor; lia]].
    match goal with H : Forall (fun p => utf8_text (fst p) /\ _) l |- _ => rename H into Hg end. clear G.
    revert b Eb. generalize true. induction l as [|(k, x) l IH]; intros first b Eb.
    + injection Eb as <-. constructor.
    + cbn [wmembers] in Eb. destruct (wstring st k) as [kk|] eqn:Ek; [|discriminate].
      destruct (wvalue fl st (S lvl) x) as [a|] eqn:Ea; [|discriminate].
      destruct (wmembers fl st lvl false l) as [b'|] eqn:Eb'; [|discriminate]. injection Eb as <-.
      inversion H as [|? ? Hx Hl]; subst. inversion Hg as [|? ? (Gk & Gx) Gl]; subst. cbn [fst snd] in *.
      apply asc_app; [destruct first; repeat constructor; lia|].
      apply asc_app; [apply blanks_asc, newline_blanks|].
      apply asc_app; [eapply wstring_asc; eassumption|].
      apply asc_app; [unfold colon; destruct (s_indent st); repeat constructor; lia|].
      apply asc_app; [eapply Hx; eassumption|]. eapply IH; eassumption.
Qed.
Lemma asc_decode s : asc s -> utf8_decode s = Ok s.
Proof.
  intros H. apply utf8_decode_wf. induction H as [|c s Hc _ IH]; [constructor|].
  change (wf ([c] ++ s) ([c] ++ s)). apply wf_app; [|exact IH].
  change (wf [c] ([c] ++ [])). constructor; [constructor; lia|constructor].
Qed.
Lemma json_ascii fl tb v indent u : reorders tb -> jsonable fl tb v ->
  (exists l, v = VList l) \/ (exists l, v = VDict l) ->
  json_dumps fl v indent true = Ok u -> asc u.
Proof.
  intros Hr Hs Hc E. destruct (jsonable_good fl tb v Hr Hs) as (j & Ej & Hj & _).
  assert (Hjc : (exists l, j = JArr l) \/ (exists l, j = JObj l)).
  { destruct Hc as [(l & ->)|(l & ->)].
    - left. change (to_json fl (VList l)) with (let! js := mmap (to_json fl) l in Ok (JArr js)) in Ej.
      destruct (mmap (to_json fl) l); inversion Ej; subst; eauto.
    - right. change (to_json fl (VDict l)) with (let! ms := jwrite fl l in Ok (JObj ms)) in Ej.
      destruct (jwrite fl l); inversion Ej; subst; eauto. }
  unfold json_dumps in E. rewrite Ej in E. cbn [bind] in E.
  assert (Hall : forall pretty k t, to_string fl j pretty true k = Ok t -> asc t).
  { intros pretty k t Et. assert (E' : wvalue fl (style_of pretty true k) 0 j = Some t).
    { unfold to_string in Et. destruct Hjc as [(l & ->)|(l & ->)];
        destruct (wvalue fl (style_of pretty true k) 0 _); congruence. }
    eapply (wvalue_asc fl true); [|apply Hj; auto|exact E']. destruct pretty; reflexivity. }
  destruct (indent =? -1).
  - destruct (to_string fl j false true 2) as [t| | |] eqn:Et; try discriminate. cbn [bind] in E.
    apply Hall in Et. rewrite asc_decode in E by assumption. congruence.
  - destruct (to_string fl j true true indent) as [t| | |] eqn:Et; try discriminate. cbn [bind] in E.
    apply Hall in Et. rewrite asc_decode in E by assumption. congruence.
Qed.

(** *** The last of several members of one name counts *)

Lemma eqs_iff a b : eqs a b = true <-> a = b.
Proof.
  revert b. induction a as [|x a IH]; intros [|y b]; cbn [eqs]; try (split; congruence).
  rewrite andb_true_iff, IH, Z.eqb_eq. split; [intros (-> & ->); reflexivity|injection 1; auto].
Qed.
Definition strs (d : list (value * value)) : Prop :=
  NoDup (map fst d) /\ forall k v, In (k, v) d -> exists u, k = VStr u.
Section Last.
  Variable tb : tables.
  Hypothesis Hk : forall u w, keq tb (VStr u) (VStr w) = eqs u w.
  Lemma dict_set_str d u v : strs d -> strs (dict_set tb d (VStr u) v)
    /\ (forall k x, In (k, x) (dict_set tb d (VStr u) v) <->
         (k = VStr u /\ x = v) \/ (k <> VStr u /\ In (k, x) d)).
  Proof.
    intros (Hn & Hs). induction d as [|(k', v') d IH].
    - cbn [dict_set]. split; [split; [repeat constructor; intros []|]|].
      + intros k x [E|[]]. injection E as <- <-. eauto.
      + intros k x. cbn [In]. split; [intros [E|[]]; injection E as <- <-; auto|].
        intros [(-> & ->)|(_ & [])]. auto.
    - cbn [map fst] in Hn. inversion Hn as [|? ? Hni Hn']; subst.
      destruct (Hs k' v' (or_introl eq_refl)) as (w & ->). cbn [dict_set]. rewrite Hk.
      destruct IH as ((I1 & I2) & I3); [assumption|intros; eapply Hs; right; eassumption|].
      destruct (eqs w u) eqn:E.
      + apply eqs_iff in E. subst w. split; [split; [exact Hn|]|].
        * intros k x [H|H]; [injection H as <- <-; eauto|]. apply (Hs k x). now right.
        * intros k x. cbn [In]. split.
          -- intros [H|H]; [injection H as <- <-; auto|]. right. split; [|now right]. intros ->.
             apply Hni. apply in_map_iff. exists (VStr u, x). auto.
          -- intros [(-> & ->)|(Hne & [H|H])]; [auto|congruence|auto].
      + assert (Hwu : VStr w <> VStr u) by (intros H; injection H as ->; rewrite (proj2 (eqs_iff u u) eq_refl) in E; discriminate).
        split; [split|].
        * cbn [map fst]. constructor; [|exact I1]. intros Hin. apply in_map_iff in Hin.
          destruct Hin as ((k, x) & Ek & Hin). cbn [fst] in Ek. subst k. apply I3 in Hin.
          destruct Hin as [(H & _)|(_ & H)]; [congruence|]. apply Hni. apply in_map_iff. exists (VStr w, x). auto.
        * intros k x [H|H]; [injection H as <- <-; eauto|]. apply (I2 k x H).
        * intros k x. cbn [In]. rewrite I3. split.
          -- intros [H|[H|H]]; [injection H as <- <-; auto|auto|tauto].
          -- intros [H|(Hne & [H|H])]; auto.
  Qed.
  Lemma jread_str ms : forall d d', strs d -> jread tb ms d = Ok d' -> strs d'
    /\ forall u, (forall k j, In (k, j) ms -> utf8_decode k <> Ok u) ->
       forall x, In (VStr u, x) d' <-> In (VStr u, x) d.
  Proof.
    induction ms as [|(k, j) ms IH]; intros d d' Hd E.
    - injection E as <-. split; [assumption|]. tauto.
    - cbn [jread] in E. destruct (utf8_decode k) as [u0| | |] eqn:Eu; try discriminate. cbn [bind] in E.
      destruct (from_json tb j) as [x0| | |] eqn:Ej; try discriminate. cbn [bind] in E.
      unfold put in E. cbn [hashable bind] in E.
      destruct (dict_set_str d u0 x0 Hd) as (Hd1 & H1). destruct (IH _ _ Hd1 E) as (Hd' & H2).
      split; [assumption|]. intros u Hu x. rewrite H2 by (intros; eapply Hu; right; eassumption).
      rewrite H1. assert (u <> u0) by (intros ->; exact (Hu k j (or_introl eq_refl) Eu)).
      split; [intros [(H' & _)|(_ & H')]; [congruence|assumption]|]. intros H'. right. split; [congruence|assumption].
  Qed.
  Lemma jread_app a b d : jread tb (a ++ b) d = let! d1 := jread tb a d in jread tb b d1.
  Proof.
    revert d. induction a as [|(k, j) a IH]; intros d; [reflexivity|]. cbn [app jread].
    destruct (utf8_decode k); try reflexivity. cbn [bind]. destruct (from_json tb j); try reflexivity. cbn [bind].
    destruct (put tb d (VStr a0) a1); try reflexivity. cbn [bind]. apply IH.
  Qed.
  Lemma last_counts a k j b u x d : reorders tb ->
    from_json tb (JObj (a ++ (k, j) :: b)) = Ok (VDict d) ->
    utf8_decode k = Ok u -> from_json tb j = Ok x ->
    (forall k' j', In (k', j') b -> utf8_decode k' <> Ok u) ->
    forall y, In (VStr u, y) d <-> y = x.
  Proof.
    intros (Hr & _) E Eu Ej Hb y.
    change (from_json tb (JObj (a ++ (k, j) :: b))) with
      (let! d := jread tb (a ++ (k, j) :: b) [] in Ok (VDict (dict_order tb d))) in E.
    destruct (jread tb (a ++ (k, j) :: b) []) as [d0| | |] eqn:E0; try discriminate. cbn [bind] in E.
    injection E as <-. rewrite jread_app in E0.
    destruct (jread tb a []) as [d1| | |] eqn:E1; try discriminate. cbn [bind jread] in E0.
    rewrite Eu in E0. cbn [bind] in E0. rewrite Ej in E0. cbn [bind] in E0. unfold put in E0. cbn [hashable bind] in E0.
    assert (S0 : strs []) by (split; [constructor|intros ? ? []]).
    destruct (jread_str a [] d1 S0 E1) as (S1 & _). destruct (dict_set_str d1 u x S1) as (S2 & H2).
    destruct (jread_str b _ d0 S2 E0) as (_ & H3).
    specialize (H3 u Hb y). rewrite H2 in H3.
    assert (Hp : In (VStr u, y) (dict_order tb d0) <-> In (VStr u, y) d0).
    { split; intros H; [eapply Permutation_in; [apply Permutation_sym, Hr|exact H]|eapply Permutation_in; [apply Hr|exact H]]. }
    rewrite Hp, H3. split; [intros [(_ & H)|(H & _)]; congruence|auto].
  Qed.
End Last.
