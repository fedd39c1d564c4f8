(** C52, C53: NDArray. *)
From Verif Require Import Base ListAux NdSpec NdModel NdAux NdMem NdInv NdProofs NdFill NdShow NdRun.
Local Open Scope Z_scope.

(** C52: a program of array operations never runs into undefined behaviour and shows, raises and
    changes what NumPy's arrays would: views share their cells with the array they come from,
    copies do not, and every element is where its index says.  Partial: said only of programs
    [meaningful] covers, see NdSpec.v; what is left out are the deviations below, sizes of 2^63
    and more, overflow of element arithmetic and the element types not modelled. *)
Theorem C52_arrays_behave_partial : forall k os,
  meaningful os (start k) ->
  exists st s rs, run os (init k) = Ok (st, rs) /\ behaves os (start k) s rs.
Proof.
  intros k os M. destruct (run_ok os _ _ (init_rel k) M) as (st & s & rs & E & B & _). eauto.
Qed.
Print Assumptions C52_arrays_behave_partial.

(** The shape and the elements of every variable at the end. *)
Theorem C52_contents_partial : forall k os, meaningful os (start k) ->
  exists st s rs, run os (init k) = Ok (st, rs) /\ behaves os (start k) s rs /\
    forall v, match nth_error (m_vars st) v, nth_error (vars s) v with
    | Some (Some p), Some (Some a) => exists c, hget (m_heap st) p = Ok c /\ c_dt c = a_dt a /\ c_shape c = a_shape a /\
        forall idx, Forall2 (fun i n => 0 <= i < n) idx (a_shape a) ->
          load (blks (m_heap st)) (padd (raw c) (sum (map (fun q => fst q * snd q) (combine idx (c_strides c)))))
          = Ok (at_index 0 (a_shape a) (values (mem s) a) idx)
    | Some None, Some None => True
    | None, None => True
    | _, _ => False
    end.
Proof.
  intros k os M. destruct (run_ok os _ _ (init_rel k) M) as (st & s & rs & E & B & R). exists st, s, rs. split; [easy|]. split; [easy|].
  intros v. pose proof (Forall2_nth _ _ _ v (r_vars _ _ R)) as V. destruct (nth_error (m_vars st) v) as [[p|]|], (nth_error (vars s) v) as [[a|]|]; try easy.
  destruct V as (c & C & D). exists c. split; [unfold hget; now rewrite C|]. split; [symmetry; apply (cr_dt _ _ _ D)|]. split; [symmetry; apply (cr_sh _ _ _ D)|].
  intros idx I. rewrite (cr_sh _ _ _ D) in *. apply in_indices in I. rewrite dot_sum. rewrite (src_load0 _ _ _ _ _ _ R C D I). f_equal.
  rewrite (values_at _ _ _ D). now rewrite at_index_map by (try easy; apply (crel_nonneg _ _ _ D)).
Qed.
Print Assumptions C52_contents_partial.

(** C53: what variables hold stays in memory that is not released, and memory that no variable
    needs any more is released. *)
Theorem C53_memory_kept_partial : forall k os st rs v p,
  meaningful os (start k) -> run os (init k) = Ok (st, rs) -> nth_error (m_vars st) v = Some (Some p) ->
  exists c, hget (m_heap st) p = Ok c /\
    forall idx, Forall2 (fun i n => 0 <= i < n) idx (c_shape c) ->
      exists x, load (blks (m_heap st)) (padd (raw c) (sum (map (fun q => fst q * snd q) (combine idx (c_strides c))))) = Ok x.
Proof.
  intros k os st rs v p M E Hv. destruct (C52_contents_partial k os M) as (st' & s & rs' & E' & _ & H). rewrite E in E'. injection E' as <- <-.
  specialize (H v). rewrite Hv in H. destruct (nth_error (vars s) v) as [[a|]|]; try easy. destruct H as (c & Hc & _ & Sh & H).
  exists c. split; [easy|]. intros idx I. rewrite Sh in I. eexists. now apply H.
Qed.
Print Assumptions C53_memory_kept_partial.
Theorem C53_no_leak_partial : forall k os st rs,
  meaningful os (start k) -> run os (init k) = Ok (st, rs) ->
  (forall b x, nth_error (blks (m_heap st)) b = Some (Some x) ->
     exists v p c o, nth_error (m_vars st) v = Some (Some p) /\ hget (m_heap st) p = Ok c /\ c_data c = Some (b, o)) /\
  ((forall v x, nth_error (m_vars st) v = Some x -> x = None) ->
     (forall b x, nth_error (blks (m_heap st)) b = Some x -> x = None) /\
     (forall i x, nth_error (conts (m_heap st)) i = Some x -> x = None)).
Proof.
  intros k os st rs M E. destruct (run_ok os _ _ (init_rel k) M) as (st' & s & rs' & E' & B & R). rewrite E in E'. injection E' as <- <-.
  assert (L : forall b x, nth_error (blks (m_heap st)) b = Some (Some x) ->
     exists v p c o, nth_error (m_vars st) v = Some (Some p) /\ hget (m_heap st) p = Ok c /\ c_data c = Some (b, o)).
  { intros b x Hb. destruct (i_own _ _ _ (r_inv _ _ R) b (ex_intro _ x Hb)) as (i & c & C & _ & Bc).
    destruct (holder st s R _ i c (le_n _) C) as (v & p & d & Hv & Cd & Bd). exists v, p, d. rewrite Bc in Bd. unfold blk_of in Bd.
    destruct (c_data d) as [[b' o]|]; [|easy]. cbn in Bd. injection Bd as ->. exists o. split; [easy|]. split; [unfold hget; now rewrite Cd|easy]. }
  split; [exact L|]. intros H. split.
  - intros b [x|] Hb; [|easy]. destruct (L b x Hb) as (v & p & c & o & Hv & _). apply H in Hv. easy.
  - intros i [c|] Hi; [|easy]. destruct (holder st s R _ i c (le_n _) Hi) as (v & p & d & Hv & _). apply H in Hv. easy.
Qed.
Print Assumptions C53_no_leak_partial.

(** ** Programs the theorems cover *)
Definition leafs (l : list Z) : list tree := map Leaf l.
Definition prog : list nop := [
  Make 0 I32 [Node (leafs [1; 2; 3]); Node (leafs [4; 5; 6])] [];
  Transpose 1 0 None; SetNum 1 [2; 0] 30; ToList 0;
  Slice 2 1 1 3 1; Contiguous 3 2; Reshape 4 3 [-1]; ToList 4;
  Arith Plus 5 1 1; Concat 6 [1; 5]%nat 1; ShapeOf 6; IsEqual 4 3; Items 7 6 [0; 5]; Items 7 6 [-1; -1]; ToList 6;
  Del 0; Del 2; SetSlice 1 0 1 5; ToList 1;
  Del 1; Del 3; Del 4; Del 5; Del 6].
Lemma meaningful_by os s (f : list nop -> state -> bool) :
  (forall os s, f os s = match os with [] => true | o :: os => match meaning o s with Some l => forallb (fun x => f os (fst (apply x s))) l | None => false end end) ->
  f os s = true -> meaningful os s.
Proof.
  intros H. revert s. induction os as [|o os IH]; intros s; rewrite H; [easy|]. cbn [meaningful]. destruct (meaning o s) as [l|]; [|easy].
  intros F. exists l. split; [easy|]. intros x I. apply IH. rewrite forallb_forall in F. auto.
Qed.
Fixpoint covered (os : list nop) (s : state) : bool :=
  match os with
  | [] => true
  | o :: os => match meaning o s with Some l => forallb (fun x => covered os (fst (apply x s))) l | None => false end
  end.
Lemma covered_ok os s : covered os s = true -> meaningful os s.
Proof. apply meaningful_by. intros [|o os']; reflexivity. Qed.
Example C52_example : meaningful prog (start 8) /\
  rmap snd (run prog (init 8)) = Ok [
    Done; Done; Done; Shown (OTrees [Node (leafs [1; 2; 30]); Node (leafs [4; 5; 6])]);
    Done; Done; Done; Shown (OTrees (leafs [2; 5; 30; 6]));
    Done; Done; Shown (OShape [3; 4]); Shown (OBool false); Raised; Shown (ONum 12);
    Shown (OTrees [Node (leafs [1; 4; 2; 8]); Node (leafs [2; 5; 4; 10]); Node (leafs [30; 6; 60; 12])]);
    Done; Done; Raised; Shown (OTrees [Node (leafs [1; 4]); Node (leafs [2; 5]); Node (leafs [30; 6])]);
    Done; Done; Done; Done; Done].
Proof. split; [apply covered_ok; vm_compute; reflexivity|vm_compute; reflexivity]. Qed.
Example C53_example : exists st rs, run prog (init 8) = Ok (st, rs) /\ (forall v x, nth_error (m_vars st) v = Some x -> x = None) /\
  blks (m_heap st) <> [] /\ conts (m_heap st) <> [] /\
  exists st' rs' x, run (firstn 17 prog) (init 8) = Ok (st', rs') /\ nth_error (blks (m_heap st')) 0 = Some (Some x) /\
    nth_error (m_vars st') 0 = Some None /\ nth_error (m_vars st') 1 <> Some None.
Proof.
  eexists. eexists. split; [vm_compute; reflexivity|]. split.
  - intros v x H. cbn [m_vars] in H. do 8 (destruct v as [|v]; [cbn in H; congruence|]). destruct v; easy.
  - split; [discriminate|]. split; [discriminate|]. eexists. eexists. eexists. split; [vm_compute; reflexivity|]. split; [reflexivity|]. split; [reflexivity|discriminate].
Qed.

(** ** Deviations from NumPy *)
(** Five elements reshaped to (2, -1): NumPy raises, here a view of four of them. *)
Theorem C52_reshape_uneven_refuted :
  rmap snd (run [Make 0 I64 (leafs [1; 2; 3; 4; 5]) []; Reshape 1 0 [2; -1]; ToList 1] (init 2)) =
    Ok [Done; Done; Shown (OTrees [Node (leafs [1; 2]); Node (leafs [3; 4])])].
Proof. vm_compute. reflexivity. Qed.
Print Assumptions C52_reshape_uneven_refuted.
(** No elements reshaped to (2^32, 2^32): the product wraps to 0 and is accepted. *)
Theorem C52_reshape_wraps_refuted :
  rmap snd (run [Fill 0 I64 7 [0]; Reshape 1 0 [2 ^ 32; 2 ^ 32]; ShapeOf 1] (init 2)) =
    Ok [Done; Done; Shown (OShape [2 ^ 32; 2 ^ 32])].
Proof. vm_compute. reflexivity. Qed.
Print Assumptions C52_reshape_wraps_refuted.
(** A tensor that came with strides is not reshaped, although it is contiguous. *)
Theorem C52_reshape_tensor_refuted :
  rmap snd (run [Import 0 I64 [2; 2] None 0 [1; 2; 3; 4]; Reshape 1 0 [4];
                 Import 2 I64 [2; 2] (Some [2; 1]) 0 [1; 2; 3; 4]; Reshape 3 2 [4]; IsEqual 0 2] (init 4)) =
    Ok [Done; Done; Done; Raised; Shown (OBool true)].
Proof. vm_compute. reflexivity. Qed.
Print Assumptions C52_reshape_tensor_refuted.
(** squeeze with a negative axis raises. *)
Theorem C52_squeeze_negative_refuted :
  rmap snd (run [Fill 0 I64 7 [2; 1]; Squeeze 1 0 [-1]; Squeeze 1 0 [1]; ShapeOf 1] (init 2)) =
    Ok [Done; Raised; Done; Shown (OShape [2])].
Proof. vm_compute. reflexivity. Qed.
Print Assumptions C52_squeeze_negative_refuted.
(** squeeze without axes compares dimensions as int: one of 2^32 + 1 is dropped. *)
Theorem C52_squeeze_truncates_refuted :
  rmap snd (run [Fill 0 I64 7 [0; 2 ^ 32 + 1]; Squeeze 1 0 []; ShapeOf 1] (init 2)) =
    Ok [Done; Done; Shown (OShape [0])].
Proof. vm_compute. reflexivity. Qed.
Print Assumptions C52_squeeze_truncates_refuted.
(** A copy of a transposed array has its elements in another order. *)
Theorem C52_copy_transposed_refuted :
  rmap snd (run [Make 0 I64 [Node (leafs [1; 2]); Node (leafs [3; 4])] []; Transpose 1 0 None; CopyTo 2 1; ToList 1; ToList 2] (init 3)) =
    Ok [Done; Done; Done; Shown (OTrees [Node (leafs [1; 3]); Node (leafs [2; 4])]);
        Shown (OTrees [Node (leafs [1; 2]); Node (leafs [3; 4])])].
Proof. vm_compute. reflexivity. Qed.
Print Assumptions C52_copy_transposed_refuted.
(** [a[:] = a.T]: elements are read after they were overwritten. *)
Theorem C52_assign_overlap_refuted :
  rmap snd (run [Make 0 I64 [Node (leafs [1; 2]); Node (leafs [3; 4])] []; Transpose 1 0 None; SetSlice 0 0 2 1; ToList 0] (init 2)) =
    Ok [Done; Done; Done; Shown (OTrees [Node (leafs [1; 3]); Node (leafs [3; 4])])].
Proof. vm_compute. reflexivity. Qed.
Print Assumptions C52_assign_overlap_refuted.
(** [a[0:2] = a[1:3]]: memcpy between overlapping regions. *)
Theorem C52_memcpy_overlap_refuted : forall x y z,
  run [Make 0 I64 (leafs [x; y; z]) []; Slice 1 0 1 3 1; SetSlice 0 0 2 1] (init 2) = UB.
Proof. intros. vm_compute. reflexivity. Qed.
Print Assumptions C52_memcpy_overlap_refuted.
(** Tensors with an offset are compared from the start of their memory. *)
Theorem C52_equal_offset_refuted :
  rmap snd (run [Import 0 I64 [2] None 1 [1; 2; 3]; Import 1 I64 [2] None 1 [9; 2; 3]; ToList 0; ToList 1; IsEqual 0 1] (init 2)) =
    Ok [Done; Done; Shown (OTrees (leafs [2; 3])); Shown (OTrees (leafs [2; 3])); Shown (OBool false)].
Proof. vm_compute. reflexivity. Qed.
Print Assumptions C52_equal_offset_refuted.
(** Arrays without dimensions: indexing them and changing their element type read past the end of
    shape and strides, as a list they have no element, their length is 0. *)
Theorem C52_scalar_array_refuted : forall x i,
  (forall d, run [Import 0 I64 [] None 0 [x]; AsType 1 0 d] (init 2) = UB) /\
  run [Import 0 I64 [] None 0 [x]; Item 1 0 i] (init 2) = UB /\
  rmap snd (run [Import 0 I64 [] None 0 [x]; ToList 0; LenOf 0] (init 2)) = Ok [Done; Shown (OTrees []); Shown (ONum 0)].
Proof. intros. split; [intros []; vm_compute; reflexivity|]. split; vm_compute; reflexivity. Qed.
Print Assumptions C52_scalar_array_refuted.
(** Assigning with more indices than dimensions reads past the end of shape and strides. *)
Theorem C52_set_too_many_refuted : forall j l,
  run [Make 0 I64 (leafs [1; 2]) []; SetList 0 [0; j] l] (init 1) = UB.
Proof. intros. vm_compute. reflexivity. Qed.
Print Assumptions C52_set_too_many_refuted.
(** Lists with a shape of negative dimensions. *)
Theorem C52_negative_shape_refuted :
  rmap snd (run [Make 0 I64 (leafs [1; 2; 3; 4; 5; 6]) [-2; -3]; ShapeOf 0] (init 1)) = Ok [Done; Shown (OShape [-2; -3])].
Proof. vm_compute. reflexivity. Qed.
Print Assumptions C52_negative_shape_refuted.
(** An empty list with a shape: memory never written. *)
Theorem C52_empty_list_refuted : forall d,
  run [Make 0 d [] [2]; ToList 0] (init 1) = UB.
Proof. intros []; vm_compute; reflexivity. Qed.
Print Assumptions C52_empty_list_refuted.
(** Unsigned 16-bit products are computed as int and may overflow. *)
Theorem C52_uint16_times_refuted :
  run [Make 0 U16 (leafs [65535]) []; ArithNum Times 1 0 65535] (init 2) = UB.
Proof. vm_compute. reflexivity. Qed.
Print Assumptions C52_uint16_times_refuted.
(** A slice step close to 2^63: the number of elements wraps. *)
Theorem C52_slice_step_refuted :
  exists n, rmap snd (run [Make 0 I64 (leafs [1; 2; 3]) []; Slice 1 0 0 3 (2 ^ 63 - 1); ShapeOf 1] (init 2)) =
    Ok [Done; Done; Shown (OShape [n])] /\ n <> 1.
Proof. eexists. split; [vm_compute; reflexivity|discriminate]. Qed.
Print Assumptions C52_slice_step_refuted.
