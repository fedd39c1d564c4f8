(** C25, C26: str.format and escaped literals. *)
From Verif Require Import Base Utf8Model Utf8Spec FmtModel FmtSpec FmtProofs.

(** ** C25 *)

(** The arguments covered and their str(): 64-bit integers and str values without the
    character NUL. *)
Inductive arg_str : fmt_arg -> list Z -> Prop :=
| as_int z t : int64 z -> py_int_str z t -> arg_str (AInt z) t
| as_str s : Forall code_point s -> ~ In 0 s -> arg_str (AStr s) s.

(** format gives exactly Python's result when there is one and raises otherwise (too few
    arguments, a single brace, a field that is not empty).  Missing from the full claim:
    arguments containing NUL and bytes arguments (refuted below), float and container
    arguments (their printing is not modelled). *)
Theorem C25_format_partial : forall f args strs, Forall code_point f -> Forall2 arg_str args strs ->
  (forall r, py_format f strs r -> str_format f args = Ok r) /\
  ((forall r, ~ py_format f strs r) -> str_format f args = Exn CheckFailed).
Proof.
  intros f args strs Hf Ha. apply str_format_spec; [assumption|].
  induction Ha as [|a t args strs Hat Ha IH]; constructor; [|assumption].
  destruct Hat; [apply prints_int|apply prints_str]; assumption.
Qed.
Print Assumptions C25_format_partial.

(** The result is unique, so the first half determines what format returns. *)
Theorem C25_format_unique : forall f strs r r', py_format f strs r -> py_format f strs r' -> r = r'.
Proof. exact py_format_functional. Qed.
Print Assumptions C25_format_unique.

(** Every int argument has exactly one decimal form. *)
Theorem C25_int_argument : forall z, int64 z -> exists t, py_int_str z t /\ forall t', py_int_str z t' -> t' = t.
Proof.
  intros z Hz. exists (put_int z). split; [apply put_int_ok; exact Hz|].
  intros t' Ht. eapply py_int_str_unique; [exact Ht|apply put_int_ok; exact Hz].
Qed.
Print Assumptions C25_int_argument.

(** '{}'.format('\0') is not the one-character string: NUL comes out as four characters. *)
Theorem C25_nul_argument_refuted :
  py_format [123; 125] [[0]] [0] /\ str_format [123; 125] [AStr [0]] <> Ok [0] /\
  str_format [123; 125] [AStr [0]] = str_format [123; 125] [AStr [92; 120; 48; 48]].
Proof. repeat split; [apply (pf_field [] [0] [] []); constructor|vm_compute; discriminate]. Qed.
Print Assumptions C25_nul_argument_refuted.

(** A bytes argument is printed raw and then decoded with the rest: '{}'.format(b'A') gives
    the same as '{}'.format('A'), where Python gives "b'A'". *)
Theorem C25_bytes_argument_refuted :
  str_format [123; 125] [ABytes [65]] = str_format [123; 125] [AStr [65]].
Proof. reflexivity. Qed.
Print Assumptions C25_bytes_argument_refuted.

(** 'x{{{}}} {}é' with -12 and 'ab' *)
Example C25_example :
  str_format [120; 123; 123; 123; 125; 125; 125; 32; 123; 125; 233] [AInt (-12); AStr [97; 98]]
  = Ok [120; 123; 45; 49; 50; 125; 32; 97; 98; 233] /\
  Forall2 arg_str [AInt (-12); AStr [97; 98]] [[45; 49; 50]; [97; 98]] /\
  str_format [123; 125; 123; 125] [AInt 1] = Exn CheckFailed /\
  (forall r, ~ py_format [123; 125; 123; 125] [[49]] r).
Proof.
  split; [reflexivity|]. split.
  { constructor; [|constructor; [|constructor]].
    - constructor; [unfold int64, two63; lia|]. right. split; [lia|]. exists [49; 50]. split; [reflexivity|].
      split; [repeat constructor; lia|]. split; [reflexivity|]. right. exists 49, [50]. split; [reflexivity|lia].
    - constructor; [repeat constructor; unfold code_point; lia|]. cbn. lia. }
  split; [reflexivity|]. intros r Hr.
  repeat match goal with H : py_format _ _ _ |- _ => inversion H; clear H; subst; try congruence end.
Qed.

(** ** C26 *)

(** The C++ literal written for a bytes constant denotes exactly that constant (and no other
    byte string), and the length written beside it is the constant's length.  This is the
    reading of C++17 and later, without trigraphs. *)
Theorem C26_bytes_literal_cpp17 : forall b, Forall is_byte b ->
  (forall b', cpp_literal (fst (codegen_bytes_literal b)) b' <-> b' = b) /\
  snd (codegen_bytes_literal b) = Z.of_nat (length b).
Proof.
  intros b Hb. split; [|reflexivity]. intros b'. split.
  - intros H. eapply literal_functional; [exact cpp_hexok_fun|exact H|]. apply escape_octal_literal; exact Hb.
  - intros ->. apply escape_octal_literal; exact Hb.
Qed.
Print Assumptions C26_bytes_literal_cpp17.

(** The project compiles the generated code with -std=c++14, where trigraphs are replaced
    first.  Proved for constants without a trigraph; false otherwise (next theorem). *)
Theorem C26_bytes_literal_cpp14_partial : forall b, Forall is_byte b -> ~ has_trigraph b ->
  forall b', cpp14_literal (fst (codegen_bytes_literal b)) b' <-> b' = b.
Proof.
  intros b Hb Hn b'. split.
  - intros H. eapply literal_functional; [exact cpp_hexok_fun|exact H|]. apply escape_cpp14; assumption.
  - intros ->. apply escape_cpp14; assumption.
Qed.
Print Assumptions C26_bytes_literal_cpp14_partial.

(** b'??=' is compiled to the one byte '#', with length 3 written beside it: the
    view reads past the literal. *)
Theorem C26_trigraph_refuted : let b := [63; 63; 61] in
  cpp14_literal (fst (codegen_bytes_literal b)) [35] /\ snd (codegen_bytes_literal b) = 3.
Proof. split; [|reflexivity]. apply li_char; try lia. constructor. Qed.
Print Assumptions C26_trigraph_refuted.

(** The printed form is a Python literal between double quotes denoting the value. *)
Theorem C26_bytes_escape_python : forall b, Forall is_byte b -> forall octal b',
  py_bytes_literal 34 (bytes_escape octal b) b' <-> b' = b.
Proof.
  intros b Hb octal b'.
  assert (H : py_bytes_literal 34 (bytes_escape octal b) b).
  { destruct octal; [apply escape_octal_literal|apply escape_hex_py]; auto. }
  split; [|intros ->; exact H].
  intros H'. eapply literal_functional; [exact py_hexok_fun|exact H'|exact H].
Qed.
Print Assumptions C26_bytes_escape_python.

(** print() and containers put it between single quotes.  Proved for values without a
    single quote. *)
Theorem C26_bytes_print_partial : forall b, Forall is_byte b -> ~ In 39 b ->
  exists s, print_bytes_item b = [98; 39] ++ s ++ [39] /\
            forall b', py_bytes_literal 39 s b' <-> b' = b.
Proof.
  intros b Hb Hn. exists (bytes_escape false b). split; [reflexivity|].
  assert (H : py_bytes_literal 39 (bytes_escape false b) b) by (apply escape_hex_py; auto).
  intros b'. split; [|intros ->; exact H].
  intros H'. eapply literal_functional; [exact py_hexok_fun|exact H'|exact H].
Qed.
Print Assumptions C26_bytes_print_partial.

(** Two different lists print alike, because the single quote is not escaped: ["a", "b"] and
    the one-element list of the string a', b'b (as bytes). *)
Theorem C26_list_print_refuted : exists l l', l <> l' /\ print_bytes_list l = print_bytes_list l'.
Proof.
  exists [[97]; [98]], [[97; 39; 44; 32; 98; 39; 98]]. split; [discriminate|reflexivity].
Qed.
Print Assumptions C26_list_print_refuted.

(** Distinct byte strings have distinct escaped forms. *)
Theorem C26_bytes_escape_injective : forall octal a b, Forall is_byte a -> Forall is_byte b ->
  bytes_escape octal a = bytes_escape octal b -> a = b.
Proof. exact bytes_escape_injective. Qed.
Print Assumptions C26_bytes_escape_injective.

(** The C++ literal written for a str constant of scalar values denotes that constant. *)
Theorem C26_str_literal : forall s, Forall cpp_scalar s ->
  exists x n, codegen_str_literal s = Ok (x, n) /\ n = Z.of_nat (length s) /\
              forall s', u_literal x s' <-> s' = s.
Proof.
  intros s Hs. destruct (unicode_escape_ok s Hs) as (x & Hx & Hl).
  exists x, (Z.of_nat (length s)). unfold codegen_str_literal. rewrite Hx. split; [reflexivity|].
  split; [reflexivity|]. intros s'. split; [|intros ->; exact Hl].
  intros H. eapply u_literal_functional; eassumption.
Qed.
Print Assumptions C26_str_literal.

(** A constant with a surrogate or an impossible code point is refused, never miscompiled. *)
Theorem C26_str_literal_refused : forall s, Forall (fun c => 0 <= c) s -> ~ Forall cpp_scalar s ->
  codegen_str_literal s = Exn CheckFailed.
Proof. intros s H0 H. unfold codegen_str_literal. rewrite unicode_escape_raises by assumption. reflexivity. Qed.
Print Assumptions C26_str_literal_refused.

(** Distinct str values have distinct escaped forms. *)
Theorem C26_str_escape_injective : forall s t x, unicode_escape s = Ok x -> unicode_escape t = Ok x ->
  Forall (fun c => 0 <= c) s -> Forall (fun c => 0 <= c) t -> s = t.
Proof.
  assert (G : forall s x, unicode_escape s = Ok x -> Forall (fun c => 0 <= c) s -> u_literal x s).
  { intros s x Hx H0.
    assert (D : Forall cpp_scalar s \/ ~ Forall cpp_scalar s).
    { destruct (Forall_Exists_dec cpp_scalar) with (l := s) as [D|D]; [|left; exact D|].
      - intros c. unfold cpp_scalar. destruct (Z_le_dec 0 c), (Z_lt_dec c 0xD800), (Z_le_dec 0xE000 c), (Z_le_dec c 0x10FFFF);
          solve [left; lia|right; lia].
      - right. intros HF. apply Exists_exists in D. destruct D as (c & Hc & N). apply N.
        rewrite Forall_forall in HF. auto. }
    destruct D as [D|D].
    - destruct (unicode_escape_ok s D) as (y & Hy & Hl). congruence.
    - rewrite unicode_escape_raises in Hx by assumption. discriminate. }
  intros s t x Hs Ht H0 H1. eapply u_literal_functional; [apply (G s x)|apply (G t x)]; assumption.
Qed.
Print Assumptions C26_str_escape_injective.

(** A byte string with a quote, a newline, a control character followed by a digit and a
    byte above 127; a str with an ASCII, a BMP and an astral character. *)
Example C26_example :
  bytes_escape true [34; 10; 1; 49; 200] = [92; 34; 92; 110; 92; 48; 48; 49; 49; 92; 51; 49; 48] /\
  bytes_escape false [34; 10; 1; 49; 200] = [92; 34; 92; 110; 92; 120; 48; 49; 49; 92; 120; 67; 56] /\
  Forall is_byte [34; 10; 1; 49; 200] /\ ~ has_trigraph [63; 63; 63] /\
  unicode_escape [65; 0x4E2D; 0x1F600] =
    Ok [92; 117; 48; 48; 52; 49; 92; 117; 52; 69; 50; 68; 92; 85; 48; 48; 48; 49; 70; 54; 48; 48] /\
  Forall cpp_scalar [65; 0x4E2D; 0x1F600].
Proof.
  split; [reflexivity|]. split; [reflexivity|]. split; [repeat constructor; unfold is_byte; lia|]. split.
  { intros (p & c & q & E & Hc). destruct p as [|? [|? p]]; cbn in E; try discriminate.
    - injection E as <- _. apply Hc. reflexivity.
    - destruct p as [|? p]; try discriminate. destruct p; discriminate. }
  split; [reflexivity|]. repeat constructor; unfold cpp_scalar; lia.
Qed.
