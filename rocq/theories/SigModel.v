(** Model of the scanners for JNI type signatures.
    Sources: src/jnivm/internal/skipJNIType.cpp, src/jnivm/internal/jValuesfromValist.cpp,
    src/jnivm/internal/findclass.cpp ([Declare]),
    src/jnivm/internal/codegen/parseJNIType.cpp, codegen/method.cpp, codegen/field.cpp.
    Pointers into the NUL terminated signature are indices; every dereference goes through
    [rd], so leaving the buffer is [UB]. *)
From Verif Require Import Base.
Local Open Scope char_scope.

(** skipJNIType.cpp 4-28 [SkipJNIType]. [fuel] bounds the recursion; [length s + 2] is always
    enough since each call starts one character further. *)
Fixpoint SkipJNIType (fuel : nat) (s : str) (cur : nat) : res nat :=
  match fuel with
  | O => Fuel
  | S fuel' =>
    let* c := rd s cur in
    if Ascii.eqb c "[" then
      let* e := SkipJNIType fuel' s (cur + 1) in
      Ok (e - 1 + 1)
    else if Ascii.eqb c "L" then Ok (std_find ";" s cur + 1)
    else if Ascii.eqb c "(" then SkipJNIType fuel' s (cur + 1)
    else Ok (cur + 1)
  end.

Definition skip_fuel (s : str) : nat := length s + 2.

(** [va_arg(list, T)]: using another type than the actual one, or reading behind the last
    argument, is undefined. *)
Definition va_int (l : list varg) : res (Z * list varg) :=
  match l with AInt z :: r => Ok (z, r) | _ => UB end.
Definition va_long (l : list varg) : res (Z * list varg) :=
  match l with ALong z :: r => Ok (z, r) | _ => UB end.
Definition va_double (l : list varg) : res (Z * list varg) :=
  match l with ADouble z :: r => Ok (z, r) | _ => UB end.
Definition va_ptr (l : list varg) : res (Z * list varg) :=
  match l with APtr z :: r => Ok (z, r) | _ => UB end.

(** The 8 bytes of a value-initialised [jvalue] whose first [n] bytes have been overwritten
    with an [n]-byte integer (little endian, as one 64-bit number). *)
Definition put (n : Z) (v : Z) : Z := (v mod 2 ^ (8 * n))%Z.

Section Narrow.
(** [(jfloat)d] on the bits of [d]: taken as a parameter. *)
Variable d2f : Z -> Z.

(** jValuesfromValist.cpp 17-61: one iteration per parameter.
    Result: the values, the remaining va_list. *)
Fixpoint JValues_loop (fuel : nat) (s : str) (i : nat) (l : list varg) : res (list Z * list varg) :=
  match fuel with
  | O => Fuel
  | S fuel' =>
    let* c := rd s i in
    if Ascii.eqb c ")" || Nat.eqb i (length s) then Ok ([], l)
    else
      let continue i' v l' :=
        let* (vs, l'') := JValues_loop fuel' s (i' + 1) l' in Ok (v :: vs, l'') in
      if Ascii.eqb c "Z" then let* (z, l') := va_int l in continue i (put 1 z) l'
      else if Ascii.eqb c "B" then let* (z, l') := va_int l in continue i (put 1 z) l'
      else if Ascii.eqb c "S" then let* (z, l') := va_int l in continue i (put 2 z) l'
      else if Ascii.eqb c "C" then let* (z, l') := va_int l in continue i (put 2 z) l'
      else if Ascii.eqb c "I" then let* (z, l') := va_int l in continue i (put 4 z) l'
      else if Ascii.eqb c "J" then let* (z, l') := va_long l in continue i (put 8 z) l'
      else if Ascii.eqb c "F" then let* (z, l') := va_double l in continue i (put 4 (d2f z)) l'
      else if Ascii.eqb c "D" then let* (z, l') := va_double l in continue i (put 8 z) l'
      else if Ascii.eqb c "[" then
        let* e := SkipJNIType (skip_fuel s) s (i + 1) in
        let* (z, l') := va_ptr l in continue (e - 1) (put 8 z) l'
      else if Ascii.eqb c "L" then
        let j := std_find ";" s i in
        if Nat.eqb j (length s) then Thrown (Err (S_ "Signature missing ';' after 'L'"))
        else let* (z, l') := va_ptr l in continue j (put 8 z) l'
      else continue i 0%Z l
  end.

(** jValuesfromValist.cpp 8-65 [JValuesfromValist]. *)
Definition JValuesfromValist (l : list varg) (s : str) : res (list Z * list varg) :=
  let* c := rd s 0 in
  if negb (Ascii.eqb c "(") then Thrown (Err (S_ "Signature doesn't begin with '(' " ++ s))
  else JValues_loop (length s + 2) s 1 l.
End Narrow.

(** findclass.cpp 106-116 [Declare]: the class names passed to [InternalFindClass], in order.
    (The lookups themselves are modelled in the VM layer.)
    On an unterminated 'L' the lookup still happens before the pointer leaves the buffer;
    the outcome of the whole function is [UB]. *)
Fixpoint Declare_loop (fuel : nat) (s : str) (i : nat) : res (list str) :=
  match fuel with
  | O => Fuel
  | S fuel' =>
    if Nat.eqb i (length s) then Ok []
    else
      let* c := rd s i in
      if Ascii.eqb c "L" then
        let j := std_find ";" s i in
        let* r := Declare_loop fuel' s (j + 1) in
        Ok (c_str (substr s (i + 1) j) :: r)
      else Declare_loop fuel' s (i + 1)
  end.
Definition Declare_names (s : str) : res (list str) := Declare_loop (length s + 2) s 0.

(** ** Code generator *)

(** [std::regex_replace(s, regex("(/|\\$)"), "::")] *)
Definition scope_of (s : str) : str :=
  flat_map (fun c => if Ascii.eqb c "/" || Ascii.eqb c "$" then [":"; ":"] else [c]) s.

(** [type.rfind(p, 0) == 0] *)
Fixpoint starts_with (p s : str) : bool :=
  match p, s with
  | [], _ => true
  | x :: p', y :: s' => Ascii.eqb x y && starts_with p' s'
  | _ :: _, [] => false
  end.

Definition shared : str := S_ "std::shared_ptr<".

(** parseJNIType.cpp 71/104: [type.rfind("std::shared_ptr<",0)==0 && type[len-1]=='>' ?
    type.substr(16, len-17) : type].  [type[len-1]] is only evaluated when the prefix
    matched, so the string is not empty. *)
Definition unwrap_shared (ty : str) : str :=
  if starts_with shared ty && Ascii.eqb (last ty NUL) ">"
  then substr ty 16 (16 + (length ty - 17)) else ty.

(** parseJNIType.cpp 6-129 [ParseJNIType] with JNIVM_FAKE_JNI_SYNTAX = [fake]:
    new position and the type written ([type] is the previous content, it is left alone for
    unknown characters). *)
Fixpoint ParseJNIType (fake : bool) (fuel : nat) (s : str) (cur : nat) (type : str) : res (nat * str) :=
  match fuel with
  | O => Fuel
  | S fuel' =>
    let* c := rd s cur in
    let prim a b := Ok (cur, if fake then S_ b else S_ a) in
    if Ascii.eqb c "V" then Ok (cur, S_ "void")
    else if Ascii.eqb c "Z" then prim "jboolean"%string "FakeJni::JBoolean"%string
    else if Ascii.eqb c "B" then prim "jbyte"%string "FakeJni::JByte"%string
    else if Ascii.eqb c "S" then prim "jshort"%string "FakeJni::JShort"%string
    else if Ascii.eqb c "C" then prim "jchar"%string "FakeJni::JChar"%string
    else if Ascii.eqb c "I" then prim "jint"%string "FakeJni::JInt"%string
    else if Ascii.eqb c "J" then prim "jlong"%string "FakeJni::JLong"%string
    else if Ascii.eqb c "F" then prim "jfloat"%string "FakeJni::JFloat"%string
    else if Ascii.eqb c "D" then prim "jdouble"%string "FakeJni::JDouble"%string
    else if Ascii.eqb c "[" then
      let* (cur', ty) := ParseJNIType fake fuel' s (cur + 1) type in
      if negb fake then
        Ok (cur', S_ "std::shared_ptr<jnivm::Array<" ++ unwrap_shared ty ++ S_ ">>")
      else if Nat.eqb (cur' - cur) 1 then
        let* d := rd s cur' in
        Ok (cur',
          if Ascii.eqb d "Z" then S_ "std::shared_ptr<FakeJni::JBooleanArray>"
          else if Ascii.eqb d "B" then S_ "std::shared_ptr<FakeJni::JByteArray>"
          else if Ascii.eqb d "S" then S_ "std::shared_ptr<FakeJni::JShortArray>"
          else if Ascii.eqb d "C" then S_ "std::shared_ptr<FakeJni::JCharArray>"
          else if Ascii.eqb d "I" then S_ "std::shared_ptr<FakeJni::JIntArray>"
          else if Ascii.eqb d "J" then S_ "std::shared_ptr<FakeJni::JLongArray>"
          else if Ascii.eqb d "F" then S_ "std::shared_ptr<FakeJni::JFloatArray>"
          else if Ascii.eqb d "D" then S_ "std::shared_ptr<FakeJni::JDoubleArray>"
          else ty)
      else Ok (cur', S_ "std::shared_ptr<FakeJni::JArray<" ++ unwrap_shared ty ++ S_ ">>")
    else if Ascii.eqb c "L" then
      let cend := std_find ";" s (cur + 1) in
      let n := substr s (cur + 1) cend in
      Ok (cend,
        if fake && str_eqb n (S_ "java/lang/String") then S_ "std::shared_ptr<FakeJni::JString>"
        else if fake && str_eqb n (S_ "java/lang/Object") then S_ "std::shared_ptr<FakeJni::JObject>"
        else if fake && str_eqb n (S_ "java/lang/Throwable") then S_ "std::shared_ptr<FakeJni::JThrowable>"
        else if fake && str_eqb n (S_ "java/lang/Class") then S_ "std::shared_ptr<FakeJni::JClass>"
        else if fake && str_eqb n (S_ "java/lang/ref/WeakReference") then S_ "std::shared_ptr<FakeJni::JWeak>"
        else S_ "std::shared_ptr<jnivm::" ++ scope_of n ++ S_ ">")
    else Ok (cur, type)
  end.

Definition parse_fuel (s : str) : nat := length s + 2.

(** codegen/method.cpp 13-33 (= 66-86 = 119-139): the loop collecting parameter types and
    return type. State: [inarg], parameters so far (reversed), return type. *)
Fixpoint Gen_loop (fake : bool) (fuel : nat) (s : str) (cur : nat) (inarg : bool)
    (ps : list str) (ret : str) : res (list str * str) :=
  match fuel with
  | O => Fuel
  | S fuel' =>
    if Nat.eqb cur (length s) then Ok (rev ps, ret)
    else
      let* c := rd s cur in
      if Ascii.eqb c "(" then Gen_loop fake fuel' s (cur + 1) true ps ret
      else if Ascii.eqb c ")" then Gen_loop fake fuel' s (cur + 1) false ps ret
      else
        let* (cur', ty) := ParseJNIType fake (parse_fuel s) s cur [] in
        match ty with
        | [] => Gen_loop fake fuel' s (cur' + 1) inarg ps ret
        | _ => if inarg then Gen_loop fake fuel' s (cur' + 1) inarg (ty :: ps) ret
               else Gen_loop fake fuel' s (cur' + 1) inarg ps ty
        end
  end.
Definition Gen_types (fake : bool) (s : str) : res (list str * str) :=
  Gen_loop fake (length s + 2) s 0 false [] [].

(** The [", "]-joined loops of codegen/method.cpp 49-54, 99-104. *)
Fixpoint seps (first : bool) (l : list str) : str :=
  match l with
  | [] => []
  | x :: r => (if first then [] else S_ ", ") ++ x ++ seps false r
  end.

(** codegen/method.cpp 7-58 [Method::GenerateHeader]. *)
Definition Method_GenerateHeader (fake : bool) (native _static : bool) (name sig cname : str) : res str :=
  if native then Ok []
  else
    let* (ps, ret) := Gen_types fake sig in
    Ok ((if str_eqb name (S_ "<init>") then cname
         else (if _static then S_ "static " else []) ++ ret ++ S_ " " ++ name)
        ++ S_ "("
        ++ (if negb fake then S_ "jnivm::ENV* env" ++ (if _static then S_ ", jnivm::Class* cl" else []) else [])
        ++ seps fake ps ++ S_ ");").

(** Decimal numeral of an unsigned number, as printed by [ostream << size_t]. *)
Fixpoint dec_digits (fuel n : nat) : str :=
  match fuel with
  | O => []
  | S f =>
    let d := ascii_of_nat (48 + Nat.modulo n 10) in
    if Nat.ltb n 10 then [d] else dec_digits f (Nat.div n 10) ++ [d]
  end.
Definition decimal (n : nat) : str := dec_digits (S n) n.

Fixpoint number_args (i : nat) (l : list str) : list str :=
  match l with
  | [] => []
  | x :: r => (x ++ S_ " arg" ++ decimal i) :: number_args (S i) r
  end.

(** codegen/method.cpp 60-111 [Method::GenerateStubs]. *)
Definition newline : str := [ascii_of_nat 10].
Definition Method_GenerateStubs (fake : bool) (native _static : bool) (name sig scope cname : str) : res str :=
  if native then Ok []
  else
    let* (ps, ret) := Gen_types fake sig in
    Ok ((if str_eqb name (S_ "<init>") then scope ++ S_ "::" ++ cname
         else ret ++ S_ " " ++ scope ++ S_ "::" ++ name)
        ++ S_ "("
        ++ (if negb fake then S_ "jnivm::ENV *" ++ (if _static then S_ ", jnivm::Class* cl" else []) else [])
        ++ seps fake (number_args 0 ps) ++ S_ ") {" ++ newline ++ S_ "    "
        ++ (if negb (str_eqb ret (S_ "void")) && negb (str_eqb name (S_ "<init>")) then S_ "return {};" else [])
        ++ newline ++ S_ "}" ++ newline ++ newline).

(** codegen/field.cpp 7-16 [Field::GenerateHeader]. *)
Definition Field_GenerateHeader (fake _static : bool) (name ty : str) : res str :=
  let* (_, c) := ParseJNIType fake (parse_fuel ty) ty 0 [] in
  Ok ((if _static then S_ "static " else []) ++ c ++ S_ " " ++ name ++ S_ ";").

(** codegen/field.cpp 18-25 [Field::GenerateStubs]. *)
Definition Field_GenerateStubs (fake _static : bool) (name ty scope : str) : res str :=
  if negb _static then Ok []
  else
    let* (_, c) := ParseJNIType fake (parse_fuel ty) ty 0 [] in
    Ok (c ++ S_ " " ++ scope ++ S_ "::" ++ name ++ S_ " = {};" ++ newline ++ newline).
