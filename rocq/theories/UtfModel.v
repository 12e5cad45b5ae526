(** Model of the modified UTF-8 codec and of the JNI string functions.
    Sources: src/jnivm/internal/stringUtil.cpp, src/jnivm/internal/string.cpp.

    [sgn] tells whether [char] is signed on the platform (it is on x86, not on ARM);
    all theorems hold for both. Units ([jchar]) are numbers in [0, 65535]. *)
From Verif Require Import Base.
Local Open Scope Z_scope.

(** Conversion [char] -> [int] (integral promotion). *)
Definition c2i (sgn : bool) (c : ascii) : Z :=
  let n := Z.of_N (N_of_ascii c) in
  if sgn && (128 <=? n) then n - 256 else n.

(** Conversion [int] -> [char] (modulo 2^8). *)
Definition i2c (z : Z) : ascii := ascii_of_N (Z.to_N (z mod 256)).

(** [(char) k] used as an operand of an [int] expression. *)
Definition charlit (sgn : bool) (k : Z) : Z := c2i sgn (i2c k).

Definition bad_utf {A} : res A := Thrown (Err (S_ "UtfDataFormatError")).

(** stringUtil.cpp 6-31 [UTFToJCharLength]; the argument [cur] is [s.data() + i].
    The null check of line 7 is not modelled: all callers pass [data()]. *)
Definition UTFToJCharLength (sgn : bool) (s : str) (i : nat) : res nat :=
  let* c0 := rd s i in
  if Z.land (c2i sgn c0) 128 =? 0 then Ok 1%nat
  else if Z.land (c2i sgn c0) 224 =? 192 then
    let* c1 := rd s (i + 1) in
    if negb (Z.land (c2i sgn c1) 192 =? 128) then bad_utf else Ok 2%nat
  else if Z.land (c2i sgn c0) 240 =? 224 then
    let* c1 := rd s (i + 1) in
    if negb (Z.land (c2i sgn c1) 192 =? 128) then bad_utf else
    let* c2 := rd s (i + 2) in
    if negb (Z.land (c2i sgn c2) 192 =? 128) then bad_utf else Ok 3%nat
  else bad_utf.

(** Conversion to [jchar] (modulo 2^16). *)
Definition to_jchar (z : Z) : Z := z mod 65536.

(** stringUtil.cpp 33-46 [UTFToJChar]: decoded unit and its size. *)
Definition UTFToJChar (sgn : bool) (s : str) (i : nat) : res (Z * nat) :=
  let* size := UTFToJCharLength sgn s i in
  match size with
  | 1%nat => let* c0 := rd s i in Ok (to_jchar (c2i sgn c0), size)
  | 2%nat =>
    let* c0 := rd s i in
    let* c1 := rd s (i + 1) in
    Ok (to_jchar (Z.lor (Z.shiftl (Z.land (c2i sgn c0) 31) 6) (Z.land (c2i sgn c1) 63)), size)
  | 3%nat =>
    let* c0 := rd s i in
    let* c1 := rd s (i + 1) in
    let* c2 := rd s (i + 2) in
    Ok (to_jchar (Z.lor (Z.lor (Z.shiftl (Z.land (c2i sgn c0) 15) 12)
                               (Z.shiftl (Z.land (c2i sgn c1) 63) 6))
                        (Z.land (c2i sgn c2) 63)), size)
  | _ => bad_utf
  end.

(** stringUtil.cpp 48-58 [JCharToUTFLength]. *)
Definition JCharToUTFLength (c : Z) : Z :=
  if c =? 0 then 2
  else if Z.land c (128 - 1) =? c then 1
  else if Z.land c (Z.shiftl 1 (5 + 6) - 1) =? c then 2
  else 3.

(** stringUtil.cpp 60-81 [JCharToUTF]: the bytes written to [cur]; their number is
    the returned size. *)
Definition JCharToUTF (sgn : bool) (c : Z) (len : Z) : res str :=
  let size := JCharToUTFLength c in
  if size >? len then Thrown (Err (S_ "End of String"))
  else if size =? 1 then Ok [i2c c]
  else if size =? 2 then
    Ok [i2c (Z.lor (charlit sgn 192) (Z.land (Z.shiftr c 6) 31));
        i2c (Z.lor (charlit sgn 128) (Z.land c 63))]
  else
    Ok [i2c (Z.lor (charlit sgn 224) (Z.land (Z.shiftr c 12) 15));
        i2c (Z.lor (charlit sgn 128) (Z.land (Z.shiftr c 6) 63));
        i2c (Z.lor (charlit sgn 128) (Z.land c 63))].

(** string.cpp 8-15 [NewString]: content of the created [String]. The unit buffer is
    given as a list, [size] units are read from it (fewer units than [size]: UB). *)
Fixpoint NewString_loop (sgn : bool) (cs : list Z) (n : nat) : res str :=
  match n with
  | O => Ok []
  | S n' =>
    match cs with
    | [] => UB
    | c :: r =>
      let* b := JCharToUTF sgn c 3 in
      let* t := NewString_loop sgn r n' in
      Ok (b ++ t)
    end
  end.
Definition NewString (sgn : bool) (cs : list Z) (size : Z) : res str :=
  NewString_loop sgn cs (Z.to_nat size).

Definition jsize_max : Z := 2147483647.

(** string.cpp 23-26: the walk of [GetStringLength]. [length++] on the largest
    [jsize] is a signed overflow, hence UB. *)
Fixpoint length_loop (sgn : bool) (fuel : nat) (s : str) (cur : nat) (length : Z) : res Z :=
  match fuel with
  | O => Fuel
  | S fuel' =>
    if (Nat.eqb cur (List.length s)) || (length <? 0) then Ok length
    else
      let* k := UTFToJCharLength sgn s cur in
      if length =? jsize_max then UB
      else length_loop sgn fuel' s (cur + k) (length + 1)
  end.

(** string.cpp 16-34 [GetStringLength]; [None] is the null reference. *)
Definition GetStringLength (sgn : bool) (os : option str) : res Z :=
  match os with
  | None => Ok 0
  | Some s =>
    let* l := length_loop sgn (S (List.length s)) s 0 0 in
    if l <? 0 then Thrown (Err (S_ "String to long, to fit in jsize")) else Ok l
  end.

(** string.cpp 80-83 / 96-99: skip [n] units. *)
Fixpoint skip_units (sgn : bool) (s : str) (n : nat) (cur : nat) : res nat :=
  match n with
  | O => Ok cur
  | S n' => let* k := UTFToJCharLength sgn s cur in skip_units sgn s n' (cur + k)
  end.

(** [while(start) ... start--]: a negative [start] does not stop before the pointer
    has left the buffer; [length s + 2] units are enough to leave it. *)
Definition skip_start (sgn : bool) (s : str) (start : Z) : res nat :=
  if start <? 0 then
    let* _ := skip_units sgn s (List.length s + 2) 0 in UB
  else skip_units sgn s (Z.to_nat start) 0.

(** string.cpp 84-89: decode [n] units. [cap] is the remaining capacity of the caller's
    buffer in units; writing more is UB. *)
Fixpoint decode_units (sgn : bool) (s : str) (n : nat) (cap : nat) (cur : nat) : res (list Z) :=
  match n with
  | O => Ok []
  | S n' =>
    let* (u, k) := UTFToJChar sgn s cur in
    match cap with
    | O => UB
    | S cap' =>
      let* t := decode_units sgn s n' cap' (cur + k) in
      Ok (u :: t)
    end
  end.

(** string.cpp 76-90 [GetStringRegion]: the units written to [buf], of capacity [cap].
    A negative [length] lets the loop run past the end of [buf]: it ends by throwing or UB. *)
Definition GetStringRegion (sgn : bool) (s : str) (start length : Z) (cap : nat) : res (list Z) :=
  let* cur := skip_start sgn s start in
  if length <? 0 then
    let* _ := decode_units sgn s (List.length s + 2) cap cur in UB
  else decode_units sgn s (Z.to_nat length) cap cur.

(** string.cpp 35-48 [GetStringChars]: the content of the allocated array. *)
Definition GetStringChars (sgn : bool) (os : option str) : res (list Z) :=
  match os with
  | None => Ok [0]
  | Some s =>
    let* l := GetStringLength sgn (Some s) in
    GetStringRegion sgn s 0 l (Z.to_nat l)
  end.

(** string.cpp 53-55 [NewStringUTF]: the argument is a C string, i.e. ends at its first NUL;
    nothing is validated. *)
Definition NewStringUTF (os : option str) : str :=
  match os with None => [] | Some s => c_str s end.

(** string.cpp 56-66 [GetStringUTFLength]. *)
Definition GetStringUTFLength (os : option str) : res Z :=
  match os with
  | None => Ok 0
  | Some s =>
    if Z.of_nat (List.length s) >? jsize_max
    then Thrown (Err (S_ "String to long, to fit in jsize"))
    else Ok (Z.of_nat (List.length s))
  end.

(** string.cpp 67-71 [GetStringUTFChars]: the array visible at the returned pointer
    (without the terminator that follows it). *)
Definition GetStringUTFChars (os : option str) : str :=
  match os with None => [] | Some s => s end.

(** string.cpp 100-106: copy [n] units as bytes. [cap] is the capacity of the buffer. *)
Fixpoint copy_units (sgn : bool) (s : str) (n : nat) (cap : nat) (cur : nat) : res str :=
  match n with
  | O => Ok []
  | S n' =>
    let* k := UTFToJCharLength sgn s cur in
    if Nat.ltb cap k then UB else
    let* t := copy_units sgn s n' (cap - k) (cur + k) in
    Ok (substr (s ++ [NUL]) cur (cur + k) ++ t)
  end.

(** string.cpp 92-108 [GetStringUTFRegion]: the bytes written to [buf] including the
    final NUL of line 107. *)
Definition GetStringUTFRegion (sgn : bool) (s : str) (start len : Z) (cap : nat) : res str :=
  let* cur := skip_start sgn s start in
  let* b := (if len <? 0 then
               let* _ := copy_units sgn s (List.length s + 2) cap cur in UB
             else copy_units sgn s (Z.to_nat len) cap cur) in
  if Nat.ltb (List.length b) cap then Ok (b ++ [NUL]) else UB.
