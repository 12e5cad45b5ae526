(** Specification of JNI type signatures: the grammar as data types with a printer, the C
    calling convention for variadic arguments, and the C++ type of a descriptor. *)
From Verif Require Import Base.
Local Open Scope char_scope.

(** ** Descriptors *)
Inductive jty :=
| JBool | JByte | JChar | JShort | JInt | JLong | JFloat | JDouble
| JObj (name : str)
| JArr (elem : jty).

Fixpoint descr (t : jty) : str :=
  match t with
  | JBool => ["Z"] | JByte => ["B"] | JChar => ["C"] | JShort => ["S"]
  | JInt => ["I"] | JLong => ["J"] | JFloat => ["F"] | JDouble => ["D"]
  | JObj n => "L" :: n ++ [";"]
  | JArr t => "[" :: descr t
  end.

(** Class names contain neither ';' nor NUL. *)
Fixpoint ty_ok (t : jty) : Prop :=
  match t with
  | JObj n => ~ In ";" n /\ ~ In NUL n
  | JArr t => ty_ok t
  | _ => True
  end.

Fixpoint ty_okb (t : jty) : bool :=
  match t with
  | JObj n => negb (existsb (Ascii.eqb ";") n) && negb (existsb (Ascii.eqb NUL) n)
  | JArr t => ty_okb t
  | _ => true
  end.

(** Method descriptors; the result [None] is void. *)
Definition ret_descr (r : option jty) : str := match r with None => ["V"] | Some t => descr t end.
Definition msig (ps : list jty) (r : option jty) : str :=
  "(" :: flat_map descr ps ++ ")" :: ret_descr r.
Definition ret_ok (r : option jty) : Prop := match r with None => True | Some t => ty_ok t end.

(** Classes mentioned, left to right. *)
Fixpoint ty_classes (t : jty) : list str :=
  match t with JObj n => [n] | JArr t => ty_classes t | _ => [] end.
Definition sig_classes (ps : list jty) (r : option jty) : list str :=
  flat_map ty_classes ps ++ match r with None => [] | Some t => ty_classes t end.

(** ** Values *)
Local Open Scope Z_scope.

(** Size in bytes of the member of [jvalue] that belongs to a type. *)
Definition ty_size (t : jty) : Z :=
  match t with
  | JBool | JByte => 1 | JChar | JShort => 2 | JInt | JFloat => 4
  | JLong | JDouble | JObj _ | JArr _ => 8
  end.
Definition ty_signed (t : jty) : bool :=
  match t with JByte | JShort | JInt | JLong => true | _ => false end.

(** Values of a type: integers for integral types; bits for floating point and references. *)
Definition in_ty (t : jty) (v : Z) : Prop :=
  let m := 2 ^ (8 * ty_size t) in
  if ty_signed t then - (m / 2) <= v < m / 2 else 0 <= v < m.

(** Reading a member of the 8-byte union. *)
Definition load (t : jty) (w : Z) : Z :=
  let m := 2 ^ (8 * ty_size t) in
  let u := w mod m in
  if ty_signed t && (m / 2 <=? u) then u - m else u.

(** C default argument promotions. Promotion of a value of type [t]; [f2d] is float-to-double. *)
Definition promote (f2d : Z -> Z) (t : jty) (v : Z) : varg :=
  match t with
  | JBool | JByte | JChar | JShort | JInt => AInt v
  | JLong => ALong v
  | JFloat => ADouble (f2d v)
  | JDouble => ADouble v
  | JObj _ | JArr _ => APtr v
  end.

Fixpoint promotes (f2d : Z -> Z) (ts : list jty) (vs : list Z) : list varg :=
  match ts, vs with
  | t :: ts, v :: vs => promote f2d t v :: promotes f2d ts vs
  | _, _ => []
  end.

(** ** The scanners on arbitrary text *)
Local Open Scope char_scope.
(** [elem r r']: the text [r] starts with an array element and continues with [r'].
    '(' is skipped like '['. *)
Inductive elem : str -> str -> Prop :=
| elem_prim c r : c <> "[" -> c <> "(" -> c <> "L" -> elem (c :: r) r
| elem_obj n r : ~ In ";" n -> elem ("L" :: n ++ ";" :: r) r
| elem_arr r r' : elem r r' -> elem ("[" :: r) r'
| elem_par r r' : elem r r' -> elem ("(" :: r) r'.

(** [safe r]: every array descriptor before the closing parenthesis is complete. *)
Inductive safe : str -> Prop :=
| safe_nil : safe []
| safe_close r : safe (")" :: r)
| safe_open_obj n : ~ In ";" n -> safe ("L" :: n)
| safe_obj n r : ~ In ";" n -> safe r -> safe ("L" :: n ++ ";" :: r)
| safe_arr r r' : elem r r' -> safe r' -> safe ("[" :: r)
| safe_other c r : c <> ")" -> c <> "L" -> c <> "[" -> safe r -> safe (c :: r).

(** [names r ns]: the class names mentioned in arbitrary text in which every 'L' is closed. *)
Inductive names : str -> list str -> Prop :=
| names_nil : names [] []
| names_obj n r ns : ~ In ";" n -> names r ns -> names ("L" :: n ++ ";" :: r) (n :: ns)
| names_other c r ns : c <> "L" -> names r ns -> names (c :: r) ns.

(** ** C++ types of the code generator *)
Definition is_prim (t : jty) : bool := match t with JObj _ | JArr _ => false | _ => true end.

Definition prim_name (fake : bool) (t : jty) : str :=
  match t with
  | JBool => if fake then S_ "FakeJni::JBoolean" else S_ "jboolean"
  | JByte => if fake then S_ "FakeJni::JByte" else S_ "jbyte"
  | JChar => if fake then S_ "FakeJni::JChar" else S_ "jchar"
  | JShort => if fake then S_ "FakeJni::JShort" else S_ "jshort"
  | JInt => if fake then S_ "FakeJni::JInt" else S_ "jint"
  | JLong => if fake then S_ "FakeJni::JLong" else S_ "jlong"
  | JFloat => if fake then S_ "FakeJni::JFloat" else S_ "jfloat"
  | JDouble => if fake then S_ "FakeJni::JDouble" else S_ "jdouble"
  | _ => []
  end.

(** 'a/b$c' becomes 'a::b::c'. *)
Fixpoint qualified (n : str) : str :=
  match n with
  | [] => []
  | c :: r => (if Ascii.eqb c "/" || Ascii.eqb c "$" then S_ "::" else [c]) ++ qualified r
  end.

(** FakeJni has its own names for five builtin classes. *)
Definition obj_name (fake : bool) (n : str) : str :=
  if fake then
    if str_eqb n (S_ "java/lang/String") then S_ "FakeJni::JString"
    else if str_eqb n (S_ "java/lang/Object") then S_ "FakeJni::JObject"
    else if str_eqb n (S_ "java/lang/Throwable") then S_ "FakeJni::JThrowable"
    else if str_eqb n (S_ "java/lang/Class") then S_ "FakeJni::JClass"
    else if str_eqb n (S_ "java/lang/ref/WeakReference") then S_ "FakeJni::JWeak"
    else S_ "jnivm::" ++ qualified n
  else S_ "jnivm::" ++ qualified n.

(** The class a reference type points to. *)
Fixpoint pointee (fake : bool) (t : jty) : str :=
  match t with
  | JObj n => obj_name fake n
  | JArr e =>
    if fake then
      if is_prim e then prim_name fake e ++ S_ "Array"
      else S_ "FakeJni::JArray<" ++ pointee fake e ++ S_ ">"
    else S_ "jnivm::Array<" ++ (if is_prim e then prim_name fake e else pointee fake e) ++ S_ ">"
  | _ => []
  end.

Definition cxx_type (fake : bool) (t : jty) : str :=
  if is_prim t then prim_name fake t
  else S_ "std::shared_ptr<" ++ pointee fake t ++ S_ ">".
Definition cxx_ret (fake : bool) (r : option jty) : str :=
  match r with None => S_ "void" | Some t => cxx_type fake t end.

(** Comma separated list. *)
Fixpoint commas (l : list str) : str :=
  match l with
  | [] => []
  | [x] => x
  | x :: r => x ++ S_ ", " ++ commas r
  end.
