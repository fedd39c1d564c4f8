(** Files: FileReader and what a script does with an open file.

    Files: src/runtime/file_reader.cc, include/matxscript/runtime/file_reader.h,
    src/runtime/container/file_private.cc, include/matxscript/runtime/container/file_private.h,
    the loop of src/codegen/codegen_c.cc.

    The file is a regular one that nobody changes and that can be read: read() gives as many bytes as it
    was asked for, or what is left.  Simplified: open() and allocation do not fail, sizes do not
    overflow. *)
From Verif Require Import Base Utf8Model.
Local Open Scope Z_scope.

(** FileReader with its ByteBuffer, file_reader.h:37-42, 68-76.  [dat]: bytes of the buffer, None
    where nothing was ever written; [gen]: how often the buffer was replaced *)
Record reader := R { rest : list Z; dat : Z -> option Z; gen : nat; cap : Z; pos : Z; lim : Z; last_line : bool; keep : bool }.
(** _s_buf_size, file_reader.cc:30 *)
Definition buf_size : Z := 8 * 1024 * 1024.
(** the constructor, file_reader.cc:32-43, for any buffer size *)
Definition opened (size : Z) (newline : bool) (content : list Z) : reader :=
  R content (fun _ => None) 0 size 0 0 false newline.

Definition len {A} (l : list A) : Z := Z.of_nat (length l).
Definition store (d : Z -> option Z) (off : Z) (bs : list Z) : Z -> option Z :=
  fun i => if (off <=? i) && (i <? off + len bs) then nth_error bs (Z.to_nat (i - off)) else d i.
(** n bytes from off on; bytes never written or outside the buffer: UB *)
Fixpoint bytes_at (d : Z -> option Z) (c off : Z) (n : nat) : res (list Z) :=
  match n with
  | O => Ok []
  | S n =>
    match (if (0 <=? off) && (off <? c) then d off else None) with
    | None => UB
    | Some b => let! l := bytes_at d c (off + 1) n in Ok (b :: l)
    end
  end.
Definition copy (r : reader) (off n : Z) : res (list Z) := bytes_at (dat r) (cap r) off (Z.to_nat n).

(** read(_fd, _buffer.data + off, n); the caller gets the number of bytes *)
Definition sys_read (r : reader) (off n : Z) : reader * Z :=
  let bs := firstn (Z.to_nat n) (rest r) in
  (R (skipn (Z.to_nat n) (rest r)) (store (dat r) off bs) (gen r) (cap r) (pos r) (lim r) (last_line r) (keep r), len bs).
Definition set_window (r : reader) (p l : Z) : reader := R (rest r) (dat r) (gen r) (cap r) p l (last_line r) (keep r).
Definition set_last (r : reader) : reader := R (rest r) (dat r) (gen r) (cap r) (pos r) (lim r) true (keep r).
(** a buffer twice as large: new char[], memset, memcpy, delete[] *)
Definition grow (r : reader) : reader :=
  let d i := if (0 <=? i) && (i <? cap r) then dat r i else Some 0 in
  R (rest r) d (S (gen r)) (2 * cap r) (pos r) (lim r) (last_line r) (keep r).

(** [line] and [len]: a pointer into a buffer *)
Record ptr := Ptr { p_gen : nat; p_off : Z; p_len : Z }.
(** String(line, len): the buffer must still be there *)
Definition text_of (r : reader) (p : ptr) : res (list Z) :=
  if (p_gen p =? gen r)%nat then copy r (p_off p) (p_len p) else UB.

(** readLineFromBuffer, file_reader.cc:154-187: the search for the newline *)
Fixpoint find_end (fuel : nat) (r : reader) (e : Z) : res Z :=
  match fuel with
  | O => Ok e
  | S fuel =>
    let! b := copy r e 1 in
    if (hd 0 b =? 10) then Ok e else find_end fuel r (e + 1)
  end.
Definition line_from_buffer (r : reader) : res (reader * option ptr) :=
  if pos r =? lim r then Ok (r, None)
  else
    let start := pos r in
    let! e := find_end (Z.to_nat (lim r - start)) r start in
    if e =? lim r then Ok (if (start =? 0) && (cap r <=? e + 1) then grow r else r, None)
    else
      let! before := if negb (keep r) && (start <? e) then copy r (e - 1) 1 else Ok [0] in
      let n := if negb (keep r) then (if (start <? e) && (hd 0 before =? 13) then e - start - 1 else e - start)
               else e - start + 1 in
      Ok (set_window r (e + 1) (lim r), Some (Ptr (gen r) start n)).

(** The loop of ReadLine, file_reader.cc:110-128 *)
Fixpoint refill (fuel : nat) (r : reader) : res (reader * option ptr) :=
  match fuel with
  | O => OutOfFuel
  | S fuel =>
    let (r, rs) := sys_read r (lim r) (cap r - lim r) in
    if rs <=? 0 then
      let r := set_last r in
      Ok (r, if pos r <? lim r then Some (Ptr (gen r) (pos r) (lim r - pos r)) else None)
    else
      let r := set_window r (pos r) (lim r + rs) in
      let! (r, o) := line_from_buffer r in
      match o with Some p => Ok (r, Some p) | None => refill fuel r end
  end.
(** ReadLine, file_reader.cc:96-152 *)
Definition read_line (r : reader) : res (reader * option ptr) :=
  if last_line r then Ok (r, None)
  else
    let! (r, o) := line_from_buffer r in
    match o with
    | None =>
      (* memmove *)
      let! r := if 0 <? pos r then
                  let! bs := copy r (pos r) (lim r - pos r) in
                  Ok (set_window (R (rest r) (store (dat r) 0 bs) (gen r) (cap r) (pos r) (lim r) (last_line r) (keep r))
                        0 (lim r - pos r))
                else Ok r in
      refill (S (length (rest r))) r
    | Some p =>
      if pos r =? lim r then
        let r := set_window r 0 0 in
        let r := if cap r =? p_len p then grow r else r in
        let (r, rs) := sys_read r 0 (cap r - p_len p) in
        Ok (if rs <=? 0 then set_last r else set_window r (pos r) rs, Some p)
      else Ok (r, Some p)
    end.

(** Read, file_reader.cc:52-94: the loop that reads all *)
Fixpoint read_all (fuel : nat) (r : reader) : res (reader * list Z) :=
  match fuel with
  | O => OutOfFuel
  | S fuel =>
    let (r, rs) := sys_read r 0 (cap r) in
    if rs <=? 0 then Ok (set_last r, [])
    else let! bs := copy r 0 rs in let! (r, l) := read_all fuel r in Ok (r, bs ++ l)
  end.
(** the loop that reads [remaining] bytes *)
Fixpoint read_some (fuel : nat) (r : reader) (size remaining : Z) : res (reader * list Z) :=
  match fuel with
  | O => OutOfFuel
  | S fuel =>
    if remaining <=? 0 then Ok (r, [])
    else if remaining <? lim r - pos r then
      let! bs := copy r (pos r) size in
      Ok (set_window r (pos r + size) (lim r), bs)
    else
      let n := lim r - pos r in
      let! bs := copy r (pos r) n in
      let r := set_window r 0 0 in
      if last_line r then Ok (r, bs)
      else
        let (r, rs) := sys_read r 0 (cap r) in
        let r := if rs <=? 0 then set_last r else set_window r (pos r) rs in
        let! (r, l) := read_some fuel r size (remaining - n) in
        Ok (r, bs ++ l)
  end.
Definition read_bytes (r : reader) (size : Z) : res (reader * list Z) :=
  if size <? 0 then
    let! bs := copy r (pos r) (lim r - pos r) in
    let! (r, l) := read_all (S (length (rest r))) (set_window r 0 0) in
    Ok (r, bs ++ l)
  else read_some (S (S (S (length (rest r))))) r size size.

(** ** FileNode, which keeps newlines: file_private.h:43 *)
(** ReadLineString, file_private.cc:108-116: an empty string when there is no line *)
Definition read_line_string (r : reader) : res (reader * list Z) :=
  let! (r, o) := read_line r in
  match o with None => Ok (r, []) | Some p => let! s := text_of r p in Ok (r, s) end.
(** ReadLines, file_private.cc:162-176 *)
Fixpoint read_lines (fuel : nat) (r : reader) : res (reader * list (list Z)) :=
  match fuel with
  | O => OutOfFuel
  | S fuel =>
    let! (r, o) := read_line r in
    match o with
    | None => Ok (r, [])
    | Some p => let! s := text_of r p in let! (r, l) := read_lines fuel r in Ok (r, s :: l)
    end
  end.
(** for line in file, codegen_c.cc:1650, 1660-1673, 1836-1845; HasNext and Next,
    file_private.cc:37-40, 134-146 *)
Fixpoint each (fuel : nat) (r : reader) : res (reader * list (list Z)) :=
  match fuel with
  | O => OutOfFuel
  | S fuel =>
    if last_line r then Ok (r, [])
    else
      let! (r, s) := read_line_string r in
      let! (r, l) := each fuel r in
      Ok (r, s :: l)
  end.

(** UTF8DecodeOneLen, file_private.cc:50-60, of a char made unsigned int *)
Fixpoint ones (fuel : nat) (c : Z) (count : Z) : Z :=
  match fuel with
  | O => count
  | S fuel => if Z.testbit c 6 then ones fuel (2 * c) (count + 1) else count
  end.
Definition one_len (b : Z) : Z := if b <? 128 then 1 else ones 8 b 1.
(** ReadUnicode, file_private.cc:62-98: the loop over the bytes; returns char_counts, limit and
    char_size *)
Fixpoint count_chars (fuel : nat) (data : list Z) (limit counts size : Z) : Z * Z * Z :=
  match fuel with
  | O => (counts, limit, size)
  | S fuel =>
    if limit <=? 0 then (counts, limit, size)
    else
      let size := one_len (hd 0 data) in
      if limit <? size then (counts + 1, limit, size)
      else count_chars fuel (skipn (Z.to_nat size) data) (limit - size) (counts + 1) size
  end.
Fixpoint read_chars (fuel : nat) (r : reader) (count skip : Z) : res (reader * list Z) :=
  match fuel with
  | O => OutOfFuel
  | S fuel =>
    if count <=? 0 then Ok (r, [])
    else
      let! (r, tmp) := read_bytes r (if skip <? count then count else skip) in
      let '(counts, limit, size) :=
        count_chars (length tmp) (skipn (Z.to_nat skip) tmp) (len tmp - skip) 0 0 in
      let skip := if 0 <? limit then size - limit else 0 in
      let count := count - counts in
      if last_line r then Ok (r, tmp)
      else if (count =? 0) && (0 <? skip) then
        let! (r, more) := read_bytes r skip in Ok (r, tmp ++ more)
      else let! (r, l) := read_chars fuel r count skip in Ok (r, tmp ++ l)
  end.
Definition read_unicode (r : reader) (size : Z) : res (reader * list Z) :=
  let! (r, s) := read_chars (S (length (rest r) + Z.to_nat (lim r - pos r))) r size 0 in
  let! u := utf8_decode s in
  Ok (r, u).

(** ** Programs over one open file *)
Inductive op : Type :=
| ReadLine            (** f.readline() *)
| ReadLines           (** f.readlines() *)
| ForLines            (** the elements of [for line in f] *)
| Read (size : Z).    (** f.read(size); f.read() is f.read(-1) *)
Inductive obs : Type := Text (s : list Z) | Texts (l : list (list Z)).
(** bytes, or characters when the file was opened as text *)
Definition shown (binary : bool) (s : list Z) : res (list Z) := if binary then Ok s else utf8_decode s.
Fixpoint showns (binary : bool) (l : list (list Z)) : res (list (list Z)) :=
  match l with
  | [] => Ok []
  | s :: l => let! s := shown binary s in let! l := showns binary l in Ok (s :: l)
  end.
Definition all (r : reader) : nat := S (S (length (rest r) + Z.to_nat (lim r - pos r))).
Definition step (binary : bool) (r : reader) (o : op) : res (reader * obs) :=
  match o with
  | ReadLine => let! (r, s) := read_line_string r in let! s := shown binary s in Ok (r, Text s)
  | ReadLines => let! (r, l) := read_lines (all r) r in let! l := showns binary l in Ok (r, Texts l)
  | ForLines => let! (r, l) := each (all r) r in let! l := showns binary l in Ok (r, Texts l)
  | Read size =>
    if binary then let! (r, s) := read_bytes r size in Ok (r, Text s)
    else let! (r, s) := read_unicode r size in Ok (r, Text s)
  end.
Fixpoint run (binary : bool) (r : reader) (ops : list op) : res (list obs) :=
  match ops with
  | [] => Ok []
  | o :: ops => let! (r, x) := step binary r o in let! l := run binary r ops in Ok (x :: l)
  end.
