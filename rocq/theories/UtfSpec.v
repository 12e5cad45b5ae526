(** Specification of modified UTF-8 as laid down by the JNI specification, written with
    arithmetic only and independent of the model. *)
From Verif Require Import Base.
Local Open Scope Z_scope.

Definition is_unit (c : Z) : Prop := 0 <= c < 65536.

(** The byte with value [z]. *)
Definition byte (z : Z) : ascii := ascii_of_N (Z.to_N z).
(** The value of a byte. *)
Definition val (b : ascii) : Z := Z.of_N (N_of_ascii b).

(** JNI specification, "Modified UTF-8 Strings":
    - U+0001 .. U+007F: one byte;
    - U+0000 and U+0080 .. U+07FF: two bytes 110xxxxx 10xxxxxx;
    - U+0800 .. U+FFFF: three bytes 1110xxxx 10xxxxxx 10xxxxxx. *)
Definition mutf8 (c : Z) : str :=
  if (1 <=? c) && (c <=? 127) then [byte c]
  else if c <=? 2047 then [byte (192 + c / 64); byte (128 + c mod 64)]
  else [byte (224 + c / 4096); byte (128 + (c / 64) mod 64); byte (128 + c mod 64)].

Definition mutf8s (cs : list Z) : str := flat_map mutf8 cs.

(** The units of a region. *)
Definition region {A} (cs : list A) (start len : Z) : list A :=
  firstn (Z.to_nat len) (skipn (Z.to_nat start) cs).

Definition in_range {A} (cs : list A) (start len : Z) : Prop :=
  0 <= start /\ 0 <= len /\ start + len <= Z.of_nat (length cs).

(** Well-formedness of an arbitrary byte string, as accepted by a JNI decoder that only checks
    the bit patterns of lead and continuation bytes. [units b n]: [b] is a sequence of [n]
    encoded units. *)
Definition lead1 (b : ascii) : Prop := val b < 128.
Definition lead2 (b : ascii) : Prop := 192 <= val b < 224.
Definition lead3 (b : ascii) : Prop := 224 <= val b < 240.
Definition cont (b : ascii) : Prop := 128 <= val b < 192.

Inductive units : str -> nat -> Prop :=
| units_nil : units [] 0
| units_1 a r n : lead1 a -> units r n -> units (a :: r) (S n)
| units_2 a b r n : lead2 a -> cont b -> units r n -> units (a :: b :: r) (S n)
| units_3 a b c r n : lead3 a -> cont b -> cont c -> units r n -> units (a :: b :: c :: r) (S n).

(** Decoding of arbitrary well-patterned bytes (overlong forms included). *)
Inductive decodes : str -> list Z -> Prop :=
| dec_nil : decodes [] []
| dec_1 a r us : lead1 a -> decodes r us -> decodes (a :: r) (val a :: us)
| dec_2 a b r us : lead2 a -> cont b -> decodes r us ->
    decodes (a :: b :: r) ((val a - 192) * 64 + (val b - 128) :: us)
| dec_3 a b c r us : lead3 a -> cont b -> cont c -> decodes r us ->
    decodes (a :: b :: c :: r) ((val a - 224) * 4096 + (val b - 128) * 64 + (val c - 128) :: us).
