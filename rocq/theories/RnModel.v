(** The random module, src/runtime/builtins_modules/_randommodule.cc.

    Not modelled: the locks; entropy of seed() (the words it reads are an argument here); the
    floating point variates other than random() and gauss (uniform, triangular, normalvariate
    and so on); arguments of randrange that are no integers. *)
From Verif Require Import Base.
Open Scope Z_scope.

(** N and M, _randommodule.cc:115-116 *)
Definition NN : nat := 624.
Definition MM : nat := 397.
Definition matrix_a : Z := 2567483615.    (* 0x9908b0df *)
Definition upper_mask : Z := 2147483648.  (* 0x80000000 *)
Definition lower_mask : Z := 2147483647.  (* 0x7fffffff *)

(** uint32_t arithmetic *)
Definition w32 (z : Z) : Z := z mod 2 ^ 32.

Definition wr (l : list Z) (i : nat) (v : Z) : res (list Z) :=
  if (i <? List.length l)%nat then Ok (firstn i l ++ v :: skipn (S i) l) else OOB.

(** RandomObject, _randommodule.cc:125-129 *)
Record rng := Rng { r_idx : Z; r_mt : list Z }.

(** One word of the next block, _randommodule.cc:158-159 *)
Definition mix (a b w : Z) : Z :=
  let y := Z.lor (Z.land a upper_mask) (Z.land b lower_mask) in
  Z.lxor (Z.lxor w (Z.shiftr y 1)) (if Z.land y 1 =? 1 then matrix_a else 0).
(** the loops of _randommodule.cc:157-164: from index [kk], [cnt] words, [src] is where the
    third word is read *)
Fixpoint block (cnt : nat) (src : nat -> nat) (kk : nat) (mt : list Z) : res (list Z) :=
  match cnt with
  | O => Ok mt
  | S c =>
    let! a := rd mt kk in
    let! b := rd mt (kk + 1) in
    let! w := rd mt (src kk) in
    let! mt' := wr mt kk (mix a b w) in
    block c src (S kk) mt'
  end.
(** _randommodule.cc:154-167, for any N and M *)
Definition regenerate (n m : nat) (mt : list Z) : res (list Z) :=
  let! mt := block (n - m) (fun kk => (kk + m)%nat) 0 mt in
  let! mt := block (m - 1) (fun kk => (kk + m - n)%nat) (n - m) mt in
  let! a := rd mt (n - 1) in
  let! b := rd mt 0 in
  let! w := rd mt (m - 1) in
  wr mt (n - 1) (mix a b w).
(** _randommodule.cc:172-176 *)
Definition temper (y : Z) : Z :=
  let y := Z.lxor y (Z.shiftr y 11) in
  let y := Z.lxor y (Z.land (w32 (Z.shiftl y 7)) 2636928640) in
  let y := Z.lxor y (Z.land (w32 (Z.shiftl y 15)) 4022730752) in
  Z.lxor y (Z.shiftr y 18).
(** genrand_int32, _randommodule.cc:144-178 *)
Definition genrand_nm (n m : nat) (s : rng) : res (Z * rng) :=
  let! s :=
    if Z.of_nat n <=? r_idx s then
      let! mt := regenerate n m (r_mt s) in Ok (Rng 0 mt)
    else Ok s in
  let! y := rdz (r_mt s) (r_idx s) in
  Ok (temper y, Rng (r_idx s + 1) (r_mt s)).
Definition genrand (s : rng) : res (Z * rng) := genrand_nm NN MM s.

(** _random_Random_random_impl, _randommodule.cc:200-205: the numerator over 2^53 *)
Definition random_num (s : rng) : res (Z * rng) :=
  let! (a, s) := genrand s in
  let! (b, s) := genrand s in
  Ok (Z.shiftr a 5 * 67108864 + Z.shiftr b 6, s).

(** init_genrand, _randommodule.cc:208-224 *)
Fixpoint init_words (cnt : nat) (i : nat) (prev : Z) : list Z :=
  match cnt with
  | O => []
  | S c =>
    let v := w32 (1812433253 * (Z.lxor prev (Z.shiftr prev 30)) + Z.of_nat i) in
    v :: init_words c (S i) v
  end.
Definition init_genrand (n : nat) (s : Z) : list Z := s :: init_words (n - 1) 1 s.

(** the end of an iteration of the loops of init_by_array, _randommodule.cc:242-247, 254-258 *)
Definition wrap_i (n : nat) (i : nat) (mt : list Z) : res (nat * list Z) :=
  if (n <=? S i)%nat then
    let! l := rd mt (n - 1) in
    let! mt := wr mt 0 l in Ok (1%nat, mt)
  else Ok (S i, mt).
(** _randommodule.cc:239-250 *)
Fixpoint by_array1 (n : nat) (key : list Z) (k i j : nat) (mt : list Z) : res (nat * list Z) :=
  match k with
  | O => Ok (i, mt)
  | S k' =>
    let! old := rd mt i in
    let! prev := rd mt (i - 1) in
    let! kj := rd key j in
    let! mt := wr mt i
      (w32 (Z.lxor old (w32 (Z.lxor prev (Z.shiftr prev 30) * 1664525)) + kj + Z.of_nat j)) in
    let! (i', mt) := wrap_i n i mt in
    by_array1 n key k' i' (if (List.length key <=? S j)%nat then O else S j) mt
  end.
(** _randommodule.cc:251-259 *)
Fixpoint by_array2 (n : nat) (k i : nat) (mt : list Z) : res (list Z) :=
  match k with
  | O => Ok mt
  | S k' =>
    let! old := rd mt i in
    let! prev := rd mt (i - 1) in
    let! mt := wr mt i
      (w32 (Z.lxor old (w32 (Z.lxor prev (Z.shiftr prev 30) * 1566083941)) - Z.of_nat i)) in
    let! (i', mt) := wrap_i n i mt in
    by_array2 n k' i' mt
  end.
(** init_by_array, _randommodule.cc:229-262; the index stays that of init_genrand *)
Definition init_by_array_n (n : nat) (key : list Z) : res rng :=
  let mt := init_genrand n 19650218 in
  let! (i, mt) := by_array1 n key (Nat.max n (List.length key)) 1 0 mt in
  let! mt := by_array2 n (n - 1) i mt in
  let! mt := wr mt 0 2147483648 in
  Ok (Rng (Z.of_nat n) mt).
Definition init_by_array (key : list Z) : res rng := init_by_array_n NN key.

(** random_seed of an int, _randommodule.cc:308-349, on a little-endian machine: the high
    word comes first; std::abs of the smallest int is undefined *)
Definition seed_key (n : Z) : list Z :=
  let low := n mod 2 ^ 32 in
  let high := n / 2 ^ 32 in
  if 0 <? high then [high; low] else [low].
Definition random_seed (n : Z) : res rng :=
  if n =? - two63 then UB else init_by_array (seed_key (Z.abs n)).

(** _random_Random_getstate_impl, _randommodule.cc:379-389 *)
Definition getstate_impl (s : rng) : list Z := r_mt s ++ [r_idx s].
(** _random_Random_setstate, _randommodule.cc:400-439: [None]: the state is left as it is *)
Definition setstate_impl (st : list Z) : res (option rng) :=
  if negb (Z.of_nat (List.length st) =? Z.of_nat NN + 1) then Exn ValueError
  else
    let words := firstn NN st in
    if existsb (fun e => e =? -1) words then Ok None
    else
      let index := last st 0 in
      if index =? -1 then Ok None
      else if (index <? 0) || (Z.of_nat NN <? index) then Exn ValueError
      else Ok (Some (Rng index (map w32 words))).

(** int(k): the conversion from int64_t to int *)
Definition to_int (k : Z) : Z := (k + 2 ^ 31) mod 2 ^ 32 - 2 ^ 31.
(** _random_Random_getrandbits_impl, _randommodule.cc:450-476, and Random::getrandbits,
    543-545, which returns it as int64_t *)
Definition getrandbits (k0 : Z) (s : rng) : res (Z * rng) :=
  let k := to_int k0 in
  if k <=? 0 then Exn ValueError
  else if k <=? 32 then
    let! (y, s) := genrand s in Ok (Z.shiftr y (32 - k), s)
  else if 64 <? k then Exn ValueError
  else
    let! (low, s) := genrand s in
    let! (high, s) := genrand s in
    Ok (wraps64 (Z.shiftl (Z.shiftr high (64 - k)) 32 + low), s).

Definition bit_length_table : list Z :=
  [0; 1; 2; 2; 3; 3; 3; 3; 4; 4; 4; 4; 4; 4; 4; 4; 5; 5; 5; 5; 5; 5; 5; 5; 5; 5; 5; 5; 5; 5; 5; 5].
(** bits_in_digit, _randommodule.cc:481-489; the argument is below 2^64: eleven rounds *)
Fixpoint bits_in_digit (fuel : nat) (d : Z) : res Z :=
  match fuel with
  | O => OutOfFuel
  | S f =>
    if 32 <=? d then let! b := bits_in_digit f (Z.shiftr d 6) in Ok (b + 6)
    else rdz bit_length_table d
  end.

(** _randbelow_with_getrandbits, _randommodule.cc:763-770: [tries] bounds the loop *)
Fixpoint below_loop (tries : nat) (k n : Z) (s : rng) : res (Z * rng) :=
  match tries with
  | O => OutOfFuel
  | S t =>
    let! (r, s) := getrandbits k s in
    if n <=? r then below_loop t k n s else Ok (r, s)
  end.
Definition randbelow (tries : nat) (n : Z) (s : rng) : res (Z * rng) :=
  let! k := bits_in_digit 12 n in below_loop tries k n s.

(** Random::randrange, _randommodule.cc:547-590 *)
Definition randrange (tries : nat) (start : Z) (stop : option Z) (step : Z) (s : rng) : res (Z * rng) :=
  match stop with
  | None => if 0 <? start then randbelow tries start s else Exn ValueError
  | Some stop =>
    let! width := chk64 (stop - start) in
    if (step =? 1) && (0 <? width) then
      let! (r, s) := randbelow tries width s in
      let! v := chk64 (start + r) in Ok (v, s)
    else if step =? 1 then Exn ValueError
    else
      let! n :=
        if 0 <? step then
          let! a := chk64 (width + step) in let! a := chk64 (a - 1) in cdiv64 a step
        else if step <? 0 then
          let! a := chk64 (width + step) in let! a := chk64 (a + 1) in cdiv64 a step
        else Exn ValueError in
      if n <=? 0 then Exn ValueError
      else
        let! (r, s) := randbelow tries n s in
        let! p := chk64 (step * r) in
        let! v := chk64 (start + p) in Ok (v, s)
  end.
(** Random::randint, _randommodule.cc:592-594 *)
Definition randint (tries : nat) (a b : Z) (s : rng) : res (Z * rng) :=
  let! b1 := chk64 (b + 1) in randrange tries a (Some b1) 1 s.

(** Random: the generator and the second normal variate gauss keeps (511-513, 790-791).
    Floats are their bits; what gauss makes of two random() and of a variate, mu and sigma are
    parameters. *)
Record floats := Floats { pair_of : Z -> Z -> Z * Z; scaled : Z -> Z -> Z -> Z }.
Record random_obj := RObj { g_rng : rng; g_next : option Z }.

(** Random::gauss, _randommodule.cc:722-732 *)
Definition gauss (fl : floats) (mu sigma : Z) (o : random_obj) : res (Z * random_obj) :=
  match g_next o with
  | Some z => Ok (scaled fl mu z sigma, RObj (g_rng o) None)
  | None =>
    let! (a, s) := random_num (g_rng o) in
    let! (b, s) := random_num s in
    let (z, next) := pair_of fl a b in
    Ok (scaled fl mu z sigma, RObj s (Some next))
  end.

(** Random::seed(Any, version), _randommodule.cc:515-526, with an int; kernel_random_seed(),
    833-836, which calls seed() (500-502) directly *)
Definition seed_obj (n : Z) (o : random_obj) : res random_obj :=
  let! s := random_seed n in Ok (RObj s None).
Definition seed_none (entropy : list Z) (o : random_obj) : res random_obj :=
  let! s := init_by_array entropy in Ok (RObj s (g_next o)).
(** Random::getstate, setstate, _randommodule.cc:528-541: (version, state, gauss_next).  What
    setstate raises leaves the new gauss_next: result and object. *)
Definition getstate (o : random_obj) : Z * list Z * option Z := (3, getstate_impl (g_rng o), g_next o).
Definition setstate (st : Z * list Z * option Z) (o : random_obj) : res unit * random_obj :=
  let '(version, words, next) := st in
  if negb (version =? 3) then (Exn CheckFailed, o)
  else
    match setstate_impl words with
    | Ok (Some s) => (Ok tt, RObj s next)
    | Ok None => (Ok tt, RObj (g_rng o) next)
    | Exn e => (Exn e, RObj (g_rng o) next)
    | OOB => (OOB, o)
    | OutOfFuel => (OutOfFuel, o)
    end.

(** A program of calls.  [tries] bounds each rejection loop. *)
Inductive call : Type :=
| CRandom | CBits (k : Z) | CRange (start : Z) (stop : option Z) (step : Z) | CInt (a b : Z)
| CGauss (mu sigma : Z).
Definition on_rng (f : rng -> res (Z * rng)) (o : random_obj) : res (Z * random_obj) :=
  let! (v, s) := f (g_rng o) in Ok (v, RObj s (g_next o)).
Definition do_call (fl : floats) (tries : nat) (c : call) (o : random_obj) : res (Z * random_obj) :=
  match c with
  | CRandom => on_rng random_num o
  | CBits k => on_rng (getrandbits k) o
  | CRange a b s => on_rng (randrange tries a b s) o
  | CInt a b => on_rng (randint tries a b) o
  | CGauss mu sigma => gauss fl mu sigma o
  end.
(** What a program sees: a value or an exception per call (an exception leaves the object as
    it was). *)
Fixpoint run (fl : floats) (tries : nat) (cs : list call) (o : random_obj)
  : res (list (Z + exn) * random_obj) :=
  match cs with
  | [] => Ok ([], o)
  | c :: cs' =>
    match do_call fl tries c o with
    | Ok (v, o') => let! (out, o'') := run fl tries cs' o' in Ok (inl v :: out, o'')
    | Exn e => let! (out, o'') := run fl tries cs' o in Ok (inr e :: out, o'')
    | OOB => OOB
    | OutOfFuel => OutOfFuel
    end
  end.

(** [n] draws of 32 bits, one after the other. *)
Fixpoint take_words (n : nat) (s : rng) : res (list Z * rng) :=
  match n with
  | O => Ok ([], s)
  | S n' => let! (v, s) := genrand s in let! (l, s) := take_words n' s in Ok (v :: l, s)
  end.

(** A history of an object: programs of calls, seeding, setstate (whose exception the program
    may catch). *)
Inductive step : Type :=
| SCalls (cs : list call) | SSeed (n : Z) | SSeedNone (entropy : list Z) | SSet (st : Z * list Z * option Z).
Fixpoint exec (fl : floats) (tries : nat) (sts : list step) (o : random_obj) : res random_obj :=
  match sts with
  | [] => Ok o
  | st :: sts' =>
    match st with
    | SCalls cs => let! (_, o) := run fl tries cs o in exec fl tries sts' o
    | SSeed n => let! o := seed_obj n o in exec fl tries sts' o
    | SSeedNone entropy => let! o := seed_none entropy o in exec fl tries sts' o
    | SSet st =>
      match setstate st o with
      | (OOB, _) => OOB
      | (OutOfFuel, _) => OutOfFuel
      | (_, o) => exec fl tries sts' o
      end
    end
  end.
