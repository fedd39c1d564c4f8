(** What Python's random module does, over a sequence of 32-bit words [w 0], [w 1], ... of which
    the first [p] are used up, with unbounded ints; and the sequence of the Mersenne Twister as
    its authors define it. *)
From Verif Require Import Base RnModel.
Open Scope Z_scope.

(** The recurrence: the word 624 places on is the word 397 places on xor the upper bit of this
    word joined to the lower bits of the next, times the matrix A. *)
Definition times_a (y : Z) : Z := Z.lxor (y / 2) (if Z.odd y then 2567483615 (* 0x9908B0DF *) else 0).
Definition recurs (n m : nat) (x : nat -> Z) : Prop :=
  forall k, x (k + n)%nat = Z.lxor (x (k + m)%nat) (times_a (x k / 2 ^ 31 * 2 ^ 31 + x (S k) mod 2 ^ 31)).
Definition word (z : Z) : Prop := 0 <= z < 2 ^ 32.
(** The constants of MT19937, and what it makes of a word of the sequence. *)
Definition mt_n : nat := 624.
Definition mt_m : nat := 397.
Definition tempered (y0 : Z) : Z :=
  let y1 := Z.lxor y0 (y0 / 2 ^ 11) in
  let y2 := Z.lxor y1 (Z.land (y1 * 2 ^ 7) 2636928640 (* 0x9D2C5680 *)) in
  let y3 := Z.lxor y2 (Z.land (y2 * 2 ^ 15) 4022730752 (* 0xEFC60000 *)) in
  Z.lxor y3 (y3 / 2 ^ 18).
(** A state of the generator: 624 words and how many of them are used up. *)
Definition state (s : rng) : Prop :=
  List.length (r_mt s) = mt_n /\ 0 <= r_idx s <= Z.of_nat mt_n /\ Forall word (r_mt s).
(** The sequence of a state: it starts with the words of the state. *)
Definition sequence_of (s : rng) (x : nat -> Z) : Prop :=
  recurs mt_n mt_m x /\ forall i, (i < mt_n)%nat -> nth_error (r_mt s) i = Some (x i).
(** The [n] words from [p] on. *)
Fixpoint words_from (x : nat -> Z) (p n : nat) : list Z :=
  match n with
  | O => []
  | S n' => tempered (x p) :: words_from x (S p) n'
  end.

(** getrandbits: words from the lowest on; of the last only its upper bits.  (Python before 3.9,
    whose module this is, raises ValueError for no bits.) *)
Fixpoint py_words (w : nat -> Z) (p : nat) (c : nat) : Z :=
  match c with
  | O => 0
  | S c' => w p + 2 ^ 32 * py_words w (S p) c'
  end.
Definition py_count (k : Z) : nat := Z.to_nat ((k - 1) / 32 + 1).
Definition py_bits (w : nat -> Z) (p : nat) (k : Z) : Z :=
  let c := py_count k in
  py_words w p (c - 1) + 2 ^ (32 * Z.of_nat (c - 1)) * (w (p + (c - 1))%nat / 2 ^ (32 * Z.of_nat c - k)).

(** Numbers below [n]: draws of as many bits as [n] has, until one is below [n]. *)
Definition py_below (w : nat -> Z) (p : nat) (n r : Z) (p' : nat) (t : nat) : Prop :=
  let k := Z.log2 n + 1 in
  let at_ i := (p + i * py_count k)%nat in
  (forall i, (i < t)%nat -> n <= py_bits w (at_ i) k)
  /\ py_bits w (at_ t) k < n /\ r = py_bits w (at_ t) k /\ p' = at_ (S t).

(** How many elements range(start, stop, step) has. *)
Definition range_len (start stop step : Z) : Z :=
  if 0 <? step then Z.max 0 ((stop - start + step - 1) / step)
  else Z.max 0 ((start - stop - step - 1) / (- step)).

Definition outcome : Type := (Z + exn)%type.

(** One call of Python's: from [p] and the variate gauss keeps to the new ones, rejecting
    [t] draws. *)
Inductive py_call (fl : floats) (w : nat -> Z) : call -> nat -> option Z -> outcome -> nat -> option Z -> nat -> Prop :=
| py_random p g :
    py_call fl w CRandom p g (inl (w p / 2 ^ 5 * 2 ^ 26 + w (S p) / 2 ^ 6)) (p + 2) g 0
| py_getbits p g k : 0 < k ->
    py_call fl w (CBits k) p g (inl (py_bits w p k)) (p + py_count k) g 0
| py_getbits_neg p g k : k <= 0 -> py_call fl w (CBits k) p g (inr ValueError) p g 0
| py_range1 p g n r p' t : 0 < n -> py_below w p n r p' t ->
    py_call fl w (CRange n None 1) p g (inl r) p' g t
| py_range1_neg p g n : n <= 0 -> py_call fl w (CRange n None 1) p g (inr ValueError) p g 0
| py_range p g a b s r p' t : s <> 0 -> 0 < range_len a b s -> py_below w p (range_len a b s) r p' t ->
    py_call fl w (CRange a (Some b) s) p g (inl (a + s * r)) p' g t
| py_range_neg p g a b s : s = 0 \/ range_len a b s = 0 ->
    py_call fl w (CRange a (Some b) s) p g (inr ValueError) p g 0
| py_int p g a b r p' t : a <= b -> py_below w p (b - a + 1) r p' t ->
    py_call fl w (CInt a b) p g (inl (a + r)) p' g t
| py_int_neg p g a b : b < a -> py_call fl w (CInt a b) p g (inr ValueError) p g 0
| py_gauss p mu sigma z next :
    pair_of fl (w p / 2 ^ 5 * 2 ^ 26 + w (S p) / 2 ^ 6)
               (w (S (S p)) / 2 ^ 5 * 2 ^ 26 + w (S (S (S p))) / 2 ^ 6) = (z, next) ->
    py_call fl w (CGauss mu sigma) p None (inl (scaled fl mu z sigma)) (p + 4) (Some next) 0
| py_gauss_kept p mu sigma z :
    py_call fl w (CGauss mu sigma) p (Some z) (inl (scaled fl mu z sigma)) p None 0.

Inductive py_run (fl : floats) (w : nat -> Z) (tries : nat)
  : list call -> nat -> option Z -> list outcome -> nat -> option Z -> Prop :=
| py_nil p g : py_run fl w tries [] p g [] p g
| py_cons c cs p g o p1 g1 t out p2 g2 :
    py_call fl w c p g o p1 g1 t -> (t < tries)%nat ->
    py_run fl w tries cs p1 g1 out p2 g2 -> py_run fl w tries (c :: cs) p g (o :: out) p2 g2.

(** Calls whose arguments and intermediate results are 64-bit ints. *)
Definition small (c : call) : Prop :=
  match c with
  | CRandom | CGauss _ _ => True
  | CBits k => - 2 ^ 31 <= k <= 63
  | CRange a None s => int64 a /\ s = 1
  | CRange a (Some b) s => int64 a /\ int64 b /\ int64 s /\ int64 (b - a) /\ (s = 1 \/ int64 (b - a + s))
  | CInt a b => int64 a /\ int64 b /\ int64 (b + 1) /\ int64 (b + 1 - a)
  end.

(** *** Seeding, as the authors of the Mersenne Twister define it *)

Definition scramble (z : Z) : Z := Z.lxor z (z / 2 ^ 30).
(** [s]: the words init_genrand gives for 19650218. *)
Definition first_words (s : nat -> Z) (seed : Z) : Prop :=
  s O = seed /\ forall i, s (S i) = (1812433253 * scramble (s i) + Z.of_nat (S i)) mod 2 ^ 32.
(** [y c]: what round [c] of the first loop of init_by_array writes, for a key of [len] words;
    the words go round the places 1 ... n - 1, so the word that was in a place is that of
    [n - 1] rounds ago. *)
Definition first_rounds (n : nat) (key : list Z) (s y : nat -> Z) : Prop :=
  forall c,
    let prev := match c with O => s O | S c' => y c' end in
    let old := if (c <? n - 1)%nat then s (S c) else y (c - (n - 1))%nat in
    let j := (c mod List.length key)%nat in
    y c = (Z.lxor old (scramble prev * 1664525 mod 2 ^ 32) + nth j key 0 + Z.of_nat j) mod 2 ^ 32.
(** [z c]: what round [c] of the second loop writes, after [r] rounds of the first. *)
Definition place (n c : nat) : nat := S (c mod (n - 1)).
Definition second_rounds (n r : nat) (y z : nat -> Z) : Prop :=
  forall c, (c < n - 1)%nat ->
    let prev := match c with O => y (r - 1)%nat | S c' => z c' end in
    let old := y (r + c - (n - 1))%nat in
    z c = (Z.lxor old (scramble prev * 1566083941 mod 2 ^ 32) - Z.of_nat (place n (r + c))) mod 2 ^ 32.
(** The state: the words of the second loop in their places, 2^31 in place 0. *)
Definition seeded (n : nat) (key : list Z) (s : rng) : Prop :=
  exists f y z, let r := Nat.max n (List.length key) in
    first_words f 19650218 /\ first_rounds n key f y /\ second_rounds n r y z
    /\ r_idx s = Z.of_nat n /\ List.length (r_mt s) = n /\ nth_error (r_mt s) 0 = Some (2 ^ 31)
    /\ forall c, (c < n - 1)%nat -> nth_error (r_mt s) (place n (r + c)) = Some (z c).

(** The key of Python's seed(n): the 32-bit words of abs(n), lowest first, at least one. *)
Inductive py_key : Z -> list Z -> Prop :=
| py_key_one n : 0 <= n < 2 ^ 32 -> py_key n [n]
| py_key_more n key : 2 ^ 32 <= n -> py_key (n / 2 ^ 32) key -> py_key n (n mod 2 ^ 32 :: key).
