(** Specification for C34 and C35. *)
From Verif Require Import Base.

(** [covers from to chunks]: the chunks (position, length) are non-empty and follow each other
    without gap or overlap from [from] to [to]. *)
Fixpoint covers (from to : Z) (chunks : list (Z * Z)) : Prop :=
  match chunks with
  | [] => from = to
  | (pos, len) :: rest => pos = from /\ 0 < len /\ covers (pos + len) to rest
  end.

(** A fair split of [n] items into at most [threads] chunks of whole groups of [g]. *)
Definition fair_split (threads g n : Z) (chunks : list (Z * Z)) : Prop :=
  covers 0 n chunks /\ Z.of_nat (length chunks) <= threads /\
  (forall c, In c chunks -> snd c mod g = 0) /\
  (forall c d, In c chunks -> In d chunks -> Z.abs (snd c - snd d) <= g).

(** Python's [[f(x) for x in xs]]: the first exception stops it. *)
Fixpoint serial_map {A B X} (f : A -> B + X) (l : list A) : list B + X :=
  match l with
  | [] => inl []
  | x :: l' =>
      match f x with
      | inr e => inr e
      | inl y => match serial_map f l' with
                 | inr e => inr e
                 | inl r => inl (y :: r)
                 end
      end
  end.
