(** C27, C28 and C29: dict and set refine their mathematical counterparts. *)
From Coq Require Import Permutation.
From Verif Require Import Base ListAux HashModel HashArith HashTable HashOps HashSpec HashProofs HashSetProofs HashFlood.

(** * C27: every history of operations *)

(** Any sequence of operations on any dict a program can hold gives the results Python's dict
    gives, whatever the hash; the only other outcome is the allocator's refusal. *)
Theorem C27_dict_refines : forall (K V : Type) (hash : K -> Z) (eqb : K -> K -> bool) cap fuel (none : V) t l ops,
  lawful hash eqb -> machine cap fuel -> reachable_dict hash eqb cap fuel none t -> items t = Ok l ->
  Forall reserve_fits ops ->
  (exists outs, dict_run eqb hash cap fuel none t ops = Ok outs /\ Forall2 same_out outs (ref_run eqb l ops)) \/
  dict_run eqb hash cap fuel none t ops = Exn bad_alloc.
Proof.
  intros K V hash eqb cap fuel none t l ops LAW MACH R IT F.
  pose proof (reachable_rep hash eqb cap fuel none LAW MACH t R) as W.
  pose proof (items_w hash eqb LAW t W) as IW. rewrite IT in IW. injection IW as ->.
  pose proof (dict_run_ok hash eqb cap fuel none LAW MACH ops t (vals t) (conj W (Permutation_refl _)) F) as H.
  destruct (dict_run eqb hash cap fuel none t ops) as [outs|e| |]; try contradiction.
  - left. exists outs. auto.
  - right. subst e. reflexivity.
Qed.
Print Assumptions C27_dict_refines.

(** From the empty dict the allocator refuses only a history that needs more than it has:
    n insertions never need more than 2^(n+3) entries. *)
Theorem C27_dict_memory : forall (K V : Type) (hash : K -> Z) (eqb : K -> K -> bool) cap fuel (none : V) ops,
  lawful hash eqb -> machine cap fuel -> 2 ^ (inserts ops + 3) <= cap -> Forall (reserve_below cap) ops ->
  exists outs, dict_run eqb hash cap fuel none tempty ops = Ok outs /\ Forall2 same_out outs (ref_run eqb [] ops).
Proof.
  intros K V hash eqb cap fuel none ops LAW MACH C F.
  destruct (dict_run_enough hash eqb cap fuel none LAW MACH ops tempty [] (rep_empty hash eqb) C F) as (outs & E).
  exists outs. split; [assumption|].
  assert (F' : Forall reserve_fits ops).
  { eapply Forall_impl; [|exact F]. intros o. destruct MACH as (HC & _).
    destruct o; cbn [reserve_below reserve_fits sreserve_below sreserve_fits]; try tauto. lia. }
  pose proof (dict_run_ok hash eqb cap fuel none LAW MACH ops tempty [] (rep_empty hash eqb) F') as H.
  rewrite E in H. exact H.
Qed.
Print Assumptions C27_dict_memory.

Theorem C27_set_refines : forall (K : Type) (hash : K -> Z) (eqb : K -> K -> bool) cap fuel t l ops,
  lawful hash eqb -> machine cap fuel -> reachable_set hash eqb cap fuel t -> items t = Ok l ->
  Forall sreserve_fits ops ->
  (exists outs, set_run eqb hash cap fuel t ops = Ok outs /\ Forall2 same_sout outs (sref_run eqb l ops)) \/
  set_run eqb hash cap fuel t ops = Exn bad_alloc.
Proof.
  intros K hash eqb cap fuel t l ops LAW MACH R IT F.
  pose proof (sreachable hash eqb cap fuel LAW MACH t R) as W.
  pose proof (sitems_w hash eqb LAW t W) as IW. rewrite IT in IW. injection IW as ->.
  pose proof (set_run_ok hash eqb cap fuel LAW MACH ops t (vals t) (conj W (Permutation_refl _)) F) as H.
  destruct (set_run eqb hash cap fuel t ops) as [outs|e| |]; try contradiction.
  - left. exists outs. auto.
  - right. subst e. reflexivity.
Qed.
Print Assumptions C27_set_refines.

Theorem C27_set_memory : forall (K : Type) (hash : K -> Z) (eqb : K -> K -> bool) cap fuel ops,
  lawful hash eqb -> machine cap fuel -> 2 ^ (sinserts ops + 3) <= cap -> Forall (sreserve_below cap) ops ->
  exists outs, set_run eqb hash cap fuel tempty ops = Ok outs /\ Forall2 same_sout outs (sref_run eqb [] ops).
Proof.
  intros K hash eqb cap fuel ops LAW MACH C F.
  assert (R : srep hash eqb tempty []) by (split; [left; reflexivity|constructor]).
  destruct (set_run_enough hash eqb cap fuel LAW MACH ops tempty [] R C F) as (outs & E).
  exists outs. split; [assumption|].
  assert (F' : Forall sreserve_fits ops).
  { eapply Forall_impl; [|exact F]. intros o. destruct MACH as (HC & _).
    destruct o; cbn [reserve_below reserve_fits sreserve_below sreserve_fits]; try tauto. lia. }
  pose proof (set_run_ok hash eqb cap fuel LAW MACH ops tempty [] R F') as H.
  rewrite E in H. exact H.
Qed.
Print Assumptions C27_set_memory.

(** Everything a program can hold can be listed, and lists no key twice. *)
Theorem C27_dict_items : forall (K V : Type) (hash : K -> Z) (eqb : K -> K -> bool) cap fuel (none : V) t,
  lawful hash eqb -> machine cap fuel -> reachable_dict hash eqb cap fuel none t ->
  exists l, items t = Ok l /\ dict_size t = Z.of_nat (length l) /\
    ForallOrdPairs (fun p q => eqb (fst p) (fst q) = false) l.
Proof.
  intros K V hash eqb cap fuel none t LAW MACH R. pose proof (reachable_rep hash eqb cap fuel none LAW MACH t R) as W.
  exists (vals t). split; [apply (items_w hash eqb LAW t W)|]. split; [apply (wf_num fst hash eqb t W)|].
  apply (kd_fop fst eqb), (wf_kd fst hash eqb t W).
Qed.
Print Assumptions C27_dict_items.
Theorem C27_set_items : forall (K : Type) (hash : K -> Z) (eqb : K -> K -> bool) cap fuel t,
  lawful hash eqb -> machine cap fuel -> reachable_set hash eqb cap fuel t ->
  exists l, items t = Ok l /\ num t = Z.of_nat (length l) /\ ForallOrdPairs (fun x y => eqb x y = false) l.
Proof.
  intros K hash eqb cap fuel t LAW MACH R. pose proof (sreachable hash eqb cap fuel LAW MACH t R) as W.
  exists (vals t). split; [apply (sitems_w hash eqb LAW t W)|]. split; [apply (wf_num (fun x => x) hash eqb t W)|].
  apply (kd_fop (fun x => x) eqb), (wf_kd (fun x => x) hash eqb t W).
Qed.
Print Assumptions C27_set_items.

(** Such keys double the table with each insertion ... *)
Theorem C27_memory_refuted : forall cap fuel t l, machine cap fuel -> reachable_set int_hash Z.eqb cap fuel t ->
  items t = Ok l -> (forall x, In x l -> exists i, 0 <= i < 4096 /\ x = attack i) -> (5 <= length l)%nat ->
  2 ^ Z.of_nat (length l) <= bucket_count t.
Proof.
  intros cap fuel t l MACH R IT HX HL. pose proof (sreachable int_hash Z.eqb cap fuel int_lawful MACH t R) as W.
  pose proof (sitems_w int_hash Z.eqb int_lawful t W) as IW. rewrite IT in IW. injection IW as ->.
  apply (flood (fun x => x) int_hash Z.eqb t 0 W); [|lia].
  intros x Hx. destruct (HX x Hx) as (i & Hi & ->). apply attack_home with (1 := W); [|assumption]. intros ->. destruct Hx.
Qed.
Print Assumptions C27_memory_refuted.
(** ... and 52 of them exhaust any memory. *)
Theorem C27_flood_refuted : forall cap fuel n, machine cap fuel -> (52 <= n <= 4096)%nat ->
  set_run Z.eqb int_hash cap fuel tempty (map (fun i => SAdd (attack (Z.of_nat i))) (seq 0 n)) = Exn bad_alloc /\
  sref_run Z.eqb [] (map (fun i => SAdd (attack (Z.of_nat i))) (seq 0 n)) = repeat SDone n.
Proof. intros cap fuel n MACH Hn. split; [apply flood_run; assumption|].
  rewrite (adds_done Z.eqb (fun i => attack (Z.of_nat i))), seq_length. reflexivity. Qed.
Print Assumptions C27_flood_refuted.

(** reserve of almost 2^63 converts a floating point number that size_t cannot hold. *)
Theorem C27_reserve_refuted : forall n cap fuel, 2 ^ 63 - 512 <= n < 2 ^ 63 ->
  set_run Z.eqb int_hash cap fuel tempty [SReserve n] = UB.
Proof.
  intros n cap fuel Hn. unfold set_run, set_step, set_reserve. destruct (Z.gtb_spec n 0); [|lia].
  unfold reserve, twice. rewrite to_double_top by assumption. reflexivity.
Qed.
Print Assumptions C27_reserve_refuted.

Example C27_example :
  lawful int_hash Z.eqb /\ machine (2 ^ 40) 60 /\
  (let ops := [DSet 5 50; DSet (attack 0) 1; DSet (attack 1) 2; DEmplace 7 70; DSet (attack 2) 3; DSet 9 90;
               DEmplace 5 51; DGet 5; DSet 5 52; DGet 5; DGet 6; DPop 9 None; DPop 9 None; DPop 9 (Some 8);
               DContains (attack 2); DLen; DItems; DReserve 100; DItems; DClear; DItems] in
   2 ^ (inserts ops + 3) <= 2 ^ 40 /\ Forall (reserve_below (2 ^ 40)) ops /\
   dict_run Z.eqb int_hash (2 ^ 40) 60 0 tempty ops =
     Ok [Done; Done; Done; Bool true; Done; Done; Bool false; Val 50; Done; Val 52; Missing; Val 90; Missing; Val 8;
         Bool true; Len 5;
         Pairs [(0, 1); (attack 1, 2); (attack 2, 3); (5, 52); (7, 70)]; Done;
         Pairs [(0, 1); (attack 1, 2); (attack 2, 3); (5, 52); (7, 70)]; Done; Pairs []]) /\
  set_run Z.eqb int_hash (2 ^ 40) 60 tempty [SAdd 5; SAdd (attack 0); SAdd (attack 1); SAdd 5; SLen; SDiscard 0; SItems; SContains 0] =
     Ok [SDone; SDone; SDone; SDone; SNum 3; SDone; SList [5; attack 1]; SBool false].
Proof.
  split; [apply int_lawful|]. split; [split; [lia|lia]|]. split.
  - split; [vm_compute; discriminate|]. split; [|vm_compute; reflexivity]. repeat constructor; vm_compute; discriminate.
  - vm_compute. reflexivity.
Qed.

(** * C28: construction, copies and equality of dicts *)

(** Built from pairs with different keys, a dict holds exactly those pairs. *)
Theorem C28_construct : forall (K V : Type) (hash : K -> Z) (eqb : K -> K -> bool) cap fuel (l : list (K * V)) t,
  lawful hash eqb -> machine cap fuel -> Z.of_nat (length l) < 2 ^ 53 ->
  ForallOrdPairs (fun p q => eqb (fst p) (fst q) = false) l ->
  dict_init_random hash eqb cap fuel l = Ok t \/ dict_init_forward hash eqb cap fuel l = Ok t \/
    dict_init_list hash eqb cap fuel l = Ok t ->
  exists l', items t = Ok l' /\ Permutation l' l.
Proof.
  intros K V hash eqb cap fuel l t LAW MACH HL FO H. apply (fop_kd fst eqb) in FO.
  destruct H as [E|[E|E]].
  - pose proof (init_random_ok hash eqb cap fuel LAW MACH l HL) as S. rewrite E in S. destruct S as (W & _ & P).
    exists (vals t). split; [apply (items_w hash eqb LAW t W)|apply P, FO].
  - pose proof (init_forward_ok hash eqb cap fuel LAW MACH l) as S. rewrite E in S. destruct S as (W & _ & P).
    exists (vals t). split; [apply (items_w hash eqb LAW t W)|apply P, FO].
  - pose proof (init_list_ok hash eqb cap fuel LAW MACH l) as S. rewrite E in S. destruct S as (W & _ & P).
    exists (vals t). split; [apply (items_w hash eqb LAW t W)|apply P, FO].
Qed.
Print Assumptions C28_construct.

(** From any pairs: no undefined behaviour, the keys are those given, and the value of a key
    is the first one given for it.  Missing: Python keeps the last. *)
Theorem C28_construct_partial : forall (K V : Type) (hash : K -> Z) (eqb : K -> K -> bool) cap fuel (l : list (K * V)) r,
  lawful hash eqb -> machine cap fuel -> Z.of_nat (length l) < 2 ^ 53 ->
  In r [dict_init_random hash eqb cap fuel l; dict_init_forward hash eqb cap fuel l; dict_init_list hash eqb cap fuel l] ->
  (exists t l', r = Ok t /\ items t = Ok l' /\ forall k, ref_get eqb l' k = ref_get eqb l k) \/ r = Exn bad_alloc.
Proof.
  intros K V hash eqb cap fuel l r LAW MACH HL H.
  assert (S : match r with
    | Ok t => wf fst hash eqb t /\ (forall k, ref_get eqb (vals t) k = ref_get eqb l k) /\ (kdistinct fst eqb l -> Permutation (vals t) l)
    | Exn e => e = bad_alloc | _ => False end).
  { destruct H as [<-|[<-|[<-|[]]]]; [apply init_random_ok|apply init_forward_ok|apply init_list_ok]; assumption. }
  destruct r as [t|e| |]; try contradiction; [left|right; congruence]. destruct S as (W & G & _).
  exists t, (vals t). split; [reflexivity|]. split; [apply (items_w hash eqb LAW t W)|exact G].
Qed.
Print Assumptions C28_construct_partial.

(** A duplicate key: the table keeps the first value, Python the last. *)
Theorem C28_duplicates_refuted : forall (K V : Type) (hash : K -> Z) (eqb : K -> K -> bool) cap fuel (k : K) (v v' : V),
  lawful hash eqb -> machine cap fuel -> 2 ^ 5 <= cap -> v <> v' ->
  exists t, dict_init_list hash eqb cap fuel [(k, v); (k, v')] = Ok t /\ items t = Ok [(k, v)] /\
    ref_of_pairs eqb [(k, v); (k, v')] = [(k, v')].
Proof.
  intros K V hash eqb cap fuel k v v' LAW MACH HC NE.
  destruct (insert_two hash eqb cap fuel LAW MACH k v v' HC) as (t & E & W & P).
  exists t. split; [assumption|]. split.
  - rewrite (items_w hash eqb LAW t W). f_equal. apply Permutation_sym, Permutation_length_1_inv in P. exact P.
  - unfold ref_of_pairs. cbn [fold_left fst snd ref_set]. rewrite (law_refl _ _ LAW). reflexivity.
Qed.
Print Assumptions C28_duplicates_refuted.

(** dict(d) holds the same pairs. *)
Theorem C28_copy : forall (K V : Type) (hash : K -> Z) (eqb : K -> K -> bool) cap fuel (none : V) t l,
  lawful hash eqb -> machine cap fuel -> reachable_dict hash eqb cap fuel none t -> items t = Ok l ->
  (exists t' l', dict_make hash eqb cap fuel t = Ok t' /\ items t' = Ok l' /\ Permutation l' l) \/
  (dict_make hash eqb cap fuel t = Exn bad_alloc /\ cap < 2 ^ (Z.of_nat (length l) + 3)).
Proof.
  intros K V hash eqb cap fuel none t l LAW MACH R IT.
  pose proof (reachable_rep hash eqb cap fuel none LAW MACH t R) as W.
  pose proof (items_w hash eqb LAW t W) as IW. rewrite IT in IW. injection IW as ->.
  pose proof (make_ok hash eqb cap fuel LAW MACH t W) as S.
  destruct (dict_make hash eqb cap fuel t) as [t'|e| |]; try contradiction.
  - left. destruct S as (W' & P). exists t', (vals t'). split; [reflexivity|]. split; [apply (items_w hash eqb LAW t' W')|exact P].
  - right. destruct S as (-> & C). split; [reflexivity|exact C].
Qed.
Print Assumptions C28_copy.

(** d1 == d2 says whether they have the same keys with equal values, however each was built. *)
Theorem C28_eq : forall (K V : Type) (hash : K -> Z) (eqb : K -> K -> bool) cap fuel (none : V) veq t1 l1 t2 l2,
  lawful hash eqb -> machine cap fuel ->
  reachable_dict hash eqb cap fuel none t1 -> items t1 = Ok l1 ->
  reachable_dict hash eqb cap fuel none t2 -> items t2 = Ok l2 ->
  exists b, dict_eq hash eqb veq t1 t2 = Ok b /\ (b = true <-> ref_eq eqb veq l1 l2).
Proof.
  intros K V hash eqb cap fuel none veq t1 l1 t2 l2 LAW MACH R1 I1 R2 I2.
  pose proof (reachable_rep hash eqb cap fuel none LAW MACH t1 R1) as W1.
  pose proof (reachable_rep hash eqb cap fuel none LAW MACH t2 R2) as W2.
  pose proof (items_w hash eqb LAW t1 W1) as IW1. rewrite I1 in IW1. injection IW1 as ->.
  pose proof (items_w hash eqb LAW t2 W2) as IW2. rewrite I2 in IW2. injection IW2 as ->.
  eapply dict_eq_ok; eassumption.
Qed.
Print Assumptions C28_eq.

Example C28_example :
  let l1 := [(1, 10); (2, 20); (attack 1, 30); (attack 2, 40)] in
  let l2 := [(attack 2, 40); (2, 20); (attack 1, 30); (1, 10)] in
  match dict_init_list int_hash Z.eqb (2 ^ 40) 60 l1, dict_init_random int_hash Z.eqb (2 ^ 40) 60 l2 with
  | Ok t1, Ok t2 =>
      ForallOrdPairs (fun p q => Z.eqb (fst p) (fst q) = false) l1 /\
      reachable_dict int_hash Z.eqb (2 ^ 40) 60 0 t1 /\ reachable_dict int_hash Z.eqb (2 ^ 40) 60 0 t2 /\
      items t1 = Ok [(attack 1, 30); (attack 2, 40); (2, 20); (1, 10)] /\
      dict_eq int_hash Z.eqb Z.eqb t1 t2 = Ok true
  | _, _ => False
  end.
Proof.
  cbv zeta.
  destruct (dict_init_list int_hash Z.eqb (2 ^ 40) 60 _) as [t1|e| |] eqn:E1; [|vm_compute in E1; discriminate E1..].
  destruct (dict_init_random int_hash Z.eqb (2 ^ 40) 60 _) as [t2|e| |] eqn:E2; [|vm_compute in E2; discriminate E2..].
  split; [repeat constructor; vm_compute; reflexivity|].
  split; [eapply rd_list; exact E1|]. split; [eapply rd_random; [|exact E2]; cbn; lia|].
  vm_compute in E1, E2. injection E1 as <-. injection E2 as <-. vm_compute. split; reflexivity.
Qed.

(** * C29: set algebra *)

(** set(iterable) *)
Theorem C29_make : forall (K : Type) (hash : K -> Z) (eqb : K -> K -> bool) cap fuel l,
  lawful hash eqb -> machine cap fuel -> Z.of_nat (length l) < 2 ^ 53 ->
  (exists t l', set_make hash eqb cap fuel l = Ok t /\ items t = Ok l' /\ forall y, member eqb y l' = member eqb y l) \/
  set_make hash eqb cap fuel l = Exn bad_alloc.
Proof.
  intros K hash eqb cap fuel l LAW MACH HL. pose proof (set_make_ok hash eqb cap fuel LAW MACH l HL) as S.
  destruct (set_make hash eqb cap fuel l) as [t|e| |]; try contradiction; [left|right; congruence].
  destruct S as (W & M). exists t, (vals t). split; [reflexivity|]. split; [apply (sitems_w hash eqb LAW t W)|exact M].
Qed.
Print Assumptions C29_make.

(** s.update(a1, ..., an); s itself may be among the arguments. *)
Theorem C29_update : forall (K : Type) (hash : K -> Z) (eqb : K -> K -> bool) cap fuel t l args,
  lawful hash eqb -> machine cap fuel -> reachable_set hash eqb cap fuel t -> items t = Ok l ->
  (exists t' l', set_update hash eqb cap fuel t args = Ok t' /\ items t' = Ok l' /\
     forall y, member eqb y l' = member eqb y l || existsb (arg_member eqb (fun y => member eqb y l) y) args) \/
  set_update hash eqb cap fuel t args = Exn bad_alloc.
Proof.
  intros K hash eqb cap fuel t l args LAW MACH R IT. pose proof (sreachable hash eqb cap fuel LAW MACH t R) as W.
  pose proof (sitems_w hash eqb LAW t W) as IW. rewrite IT in IW. injection IW as ->.
  pose proof (update_ok hash eqb cap fuel LAW MACH args t W) as S.
  destruct (set_update hash eqb cap fuel t args) as [t'|e| |]; try contradiction; [left|right; congruence].
  destruct S as (W' & M). exists t', (vals t'). split; [reflexivity|]. split; [apply (sitems_w hash eqb LAW t' W')|].
  intros y. rewrite M. apply own_or.
Qed.
Print Assumptions C29_update.
(** s.union(a1, ..., an) *)
Theorem C29_union : forall (K : Type) (hash : K -> Z) (eqb : K -> K -> bool) cap fuel t l args,
  lawful hash eqb -> machine cap fuel -> reachable_set hash eqb cap fuel t -> items t = Ok l ->
  (exists t' l', set_union hash eqb cap fuel t args = Ok t' /\ items t' = Ok l' /\
     forall y, member eqb y l' = member eqb y l || existsb (arg_member eqb (fun y => member eqb y l) y) args) \/
  set_union hash eqb cap fuel t args = Exn bad_alloc.
Proof.
  intros K hash eqb cap fuel t l args LAW MACH R IT. pose proof (sreachable hash eqb cap fuel LAW MACH t R) as W.
  pose proof (sitems_w hash eqb LAW t W) as IW. rewrite IT in IW. injection IW as ->.
  pose proof (union_ok hash eqb cap fuel LAW MACH t args W) as S.
  destruct (set_union hash eqb cap fuel t args) as [t'|e| |]; try contradiction; [left|right; congruence].
  destruct S as (W' & M). exists t', (vals t'). split; [reflexivity|]. split; [apply (sitems_w hash eqb LAW t' W')|].
  intros y. rewrite M. apply own_or.
Qed.
Print Assumptions C29_union.
(** s.difference(a1, ..., an) *)
Theorem C29_difference : forall (K : Type) (hash : K -> Z) (eqb : K -> K -> bool) cap fuel t l args,
  lawful hash eqb -> machine cap fuel -> reachable_set hash eqb cap fuel t -> items t = Ok l ->
  (exists t' l', set_difference hash eqb cap fuel t args = Ok t' /\ items t' = Ok l' /\
     forall y, member eqb y l' = member eqb y l && negb (existsb (arg_member eqb (fun y => member eqb y l) y) args)) \/
  set_difference hash eqb cap fuel t args = Exn bad_alloc.
Proof.
  intros K hash eqb cap fuel t l args LAW MACH R IT. pose proof (sreachable hash eqb cap fuel LAW MACH t R) as W.
  pose proof (sitems_w hash eqb LAW t W) as IW. rewrite IT in IW. injection IW as ->.
  pose proof (difference_ok hash eqb cap fuel LAW MACH t args W) as S.
  destruct (set_difference hash eqb cap fuel t args) as [t'|e| |]; try contradiction; [left|right; congruence].
  destruct S as (W' & M). exists t', (vals t'). split; [reflexivity|]. split; [apply (sitems_w hash eqb LAW t' W')|exact M].
Qed.
Print Assumptions C29_difference.
(** s.difference_update(a1, ..., an).  Missing: s itself among the arguments. *)
Theorem C29_difference_update_partial : forall (K : Type) (hash : K -> Z) (eqb : K -> K -> bool) cap fuel t l ls,
  lawful hash eqb -> machine cap fuel -> reachable_set hash eqb cap fuel t -> items t = Ok l ->
  exists t' l', set_difference_update hash eqb t (map Values ls) = Ok t' /\ items t' = Ok l' /\
     forall y, member eqb y l' = member eqb y l && negb (existsb (member eqb y) ls).
Proof.
  intros K hash eqb cap fuel t l ls LAW MACH R IT. pose proof (sreachable hash eqb cap fuel LAW MACH t R) as W.
  pose proof (sitems_w hash eqb LAW t W) as IW. rewrite IT in IW. injection IW as ->.
  destruct (diff_update_ok hash eqb cap fuel LAW MACH ls t W) as (t' & E & W' & M).
  exists t', (vals t'). split; [assumption|]. split; [apply (sitems_w hash eqb LAW t' W')|exact M].
Qed.
Print Assumptions C29_difference_update_partial.
(** s.difference_update(s) reads an entry whose value has moved away, already for two small
    integers; for three keys it leaves one of them in the set. *)
Theorem C29_self_difference_refuted :
  (exists t, reachable_set int_hash Z.eqb (2 ^ 40) 60 t /\ (exists l, items t = Ok l /\ Permutation l [0; 2]) /\
     set_difference_update int_hash Z.eqb t [Self] = UB) /\
  (exists t t', reachable_set int_hash Z.eqb (2 ^ 40) 60 t /\
     set_difference_update int_hash Z.eqb t [Self] = Ok t' /\ items t' = Ok [attack 1]).
Proof.
  split.
  - destruct (set_make int_hash Z.eqb (2 ^ 40) 60 [0; 2]) as [t|e| |] eqn:E; [|vm_compute in E; discriminate E..].
    exists t. split; [eapply rs_make; [|exact E]; cbn; lia|]. vm_compute in E. injection E as <-.
    split; [|vm_compute; reflexivity]. eexists. split; [vm_compute; reflexivity|apply Permutation_refl].
  - destruct (set_make int_hash Z.eqb (2 ^ 40) 60 [attack 0; attack 1; attack 2]) as [t|e| |] eqn:E; [|vm_compute in E; discriminate E..].
    exists t. destruct (set_difference_update int_hash Z.eqb t [Self]) as [t'|e| |] eqn:E'.
    2-4: vm_compute in E; injection E as <-; vm_compute in E'; discriminate E'.
    exists t'. split; [eapply rs_make; [|exact E]; cbn; lia|]. split; [reflexivity|].
    vm_compute in E. injection E as <-. vm_compute in E'. injection E' as <-. vm_compute. reflexivity.
Qed.
Print Assumptions C29_self_difference_refuted.
(** s1 == s2 *)
Theorem C29_eq : forall (K : Type) (hash : K -> Z) (eqb : K -> K -> bool) cap fuel t1 l1 t2 l2,
  lawful hash eqb -> machine cap fuel ->
  reachable_set hash eqb cap fuel t1 -> items t1 = Ok l1 ->
  reachable_set hash eqb cap fuel t2 -> items t2 = Ok l2 ->
  exists b, set_eq hash eqb t1 t2 = Ok b /\ (b = true <-> forall y, member eqb y l1 = member eqb y l2).
Proof.
  intros K hash eqb cap fuel t1 l1 t2 l2 LAW MACH R1 I1 R2 I2.
  pose proof (sreachable hash eqb cap fuel LAW MACH t1 R1) as W1.
  pose proof (sreachable hash eqb cap fuel LAW MACH t2 R2) as W2.
  pose proof (sitems_w hash eqb LAW t1 W1) as IW1. rewrite I1 in IW1. injection IW1 as ->.
  pose proof (sitems_w hash eqb LAW t2 W2) as IW2. rewrite I2 in IW2. injection IW2 as ->.
  eapply set_eq_ok; eassumption.
Qed.
Print Assumptions C29_eq.

Example C29_example :
  match set_make int_hash Z.eqb (2 ^ 40) 60 [1; 2; attack 1; attack 2; 2] with
  | Ok t =>
      reachable_set int_hash Z.eqb (2 ^ 40) 60 t /\ items t = Ok [attack 1; attack 2; 2; 1] /\
      rmap (@items Z) (set_union int_hash Z.eqb (2 ^ 40) 60 t [Values [7; 1]; Self]) = Ok (Ok [attack 1; attack 2; 2; 7; 1]) /\
      rmap (@items Z) (set_difference int_hash Z.eqb (2 ^ 40) 60 t [Values [7; 1]]) = Ok (Ok [attack 1; attack 2; 2]) /\
      rmap (@items Z) (set_difference int_hash Z.eqb (2 ^ 40) 60 t [Self]) = Ok (Ok []) /\
      rmap (@items Z) (set_update int_hash Z.eqb (2 ^ 40) 60 t [Self; Values [7]]) = Ok (Ok [attack 1; attack 2; 2; 7; 1]) /\
      rmap (@items Z) (set_difference_update int_hash Z.eqb t [Values [7; attack 1]]) = Ok (Ok [attack 2; 2; 1])
  | _ => False
  end.
Proof.
  destruct (set_make int_hash Z.eqb (2 ^ 40) 60 _) as [t|e| |] eqn:E; [|vm_compute in E; discriminate E..].
  split; [eapply rs_make; [|exact E]; cbn; lia|]. vm_compute in E. injection E as <-. vm_compute. repeat split.
Qed.
