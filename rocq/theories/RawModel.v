(** Memory that the library hands to native code as raw pointers: the buffers of GetStringChars, the text of
    GetStringUTFChars, the elements of GetArrayElements, and the temporary block of New<Type>Array.
    (string.cpp 35-74, array.cpp 30-47, array.h 45-71)

    Addresses of blocks are positions in a list and are not used again after a block is freed; a real allocator may
    hand out the address of a freed block again.  Using the old pointer is undefined behaviour in both cases. *)
From Verif Require Import Base SigModel UtfModel VmState VmModel VmStep.
Set Implicit Arguments.
Unset Strict Implicit.
Local Open Scope vm_scope.

(** Blocks from [new T[n]] that are not part of an object:
    string.cpp 41, 45 [new jchar[length]], [new jchar[1]{0}] and array.cpp 32 [new T[length]{0}]. *)
Inductive blk := BChars (l : list Z) | BTemp (p : pty) (l : list Z).
Definition cells (b : blk) : list Z := match b with BChars l | BTemp _ l => l end.

Definition mem := list (option blk).
(** The virtual machine and the blocks; [None] is a block that was freed. *)
Record rst := mkRst { r_vm : st; r_mem : mem }.

(** Pointers that native code holds: null, the start of a block, the text of a String object (string.cpp 70 [data()]),
    the literal [""] (string.cpp 70), the elements of an array object (array.cpp 41 [getArray()]). *)
Inductive rptr := PNull | PHeap (b : nat) | PText (i : oid) | PLit | PElems (a : oid).

Inductive rop :=
| RVm (o : op)                                                  (* any function of the library *)
| RReleaseStringChars (h : option oid) (p : rptr)
| RReleaseStringUTFChars (h : option oid) (p : rptr)
| RReleaseArrayElements (h : option oid) (p : rptr) (mode : Z)
| RRead (p : rptr) (k : nat)                                    (* native code: p[k] *)
| RWrite (p : rptr) (k : nat) (z : Z).                          (* native code: p[k] = z *)

(** [RPtr p c]: a function returned pointer [p] and stored [c] in [*isCopy] ([None]: did not store anything). *)
Inductive rout := ROut (v : obs) | RPtr (p : rptr) (c : option bool) | RCell (z : Z) | RDone.

(** Element [k] of the cells is [z] from now on. *)
Definition set_cells (b : blk) (k : nat) (z : Z) : blk :=
  match b with BChars l => BChars (list_set l k z) | BTemp p l => BTemp p (list_set l k z) end.
Definition byte (c : Ascii.ascii) : Z := Z.of_nat (Ascii.nat_of_ascii c).
Definition nonzero (n : Z) : bool := negb (n =? 0)%Z.

Section Cfg.
Variable G : cfg.

(** string.cpp 72-76 [GetStringUTFChars]: [data()] of the String object behind the handle, or the literal *)
Definition text_ptr (h : option oid) (s : st) : rptr :=
  match h with
  | None => PLit
  | Some _ => match jnicast G TString h s with Ret (Some i) _ => PText i | _ => PNull end
  end.

(** What a function of the library does with raw memory, after it did [o] on the objects of [s] and returned [v]:
    - array.cpp 32: a non-empty new array is filled from a temporary block [new T[length]{0}], which [Array(T*, jsize)]
      copies (array.h 60-66) and nobody deletes;
    - string.cpp 35-48 [GetStringChars]: a new block with the units (one zero for the null string, for which [*copy] is
      not set);
    - string.cpp 67-71 [GetStringUTFChars], array.cpp 36-42 [GetArrayElements]: pointers into objects, [*copy] = false.
    The storage that an array owns (array.h 47-71) is part of its object. *)
Definition native (o : op) (s : st) (v : obs) (m : mem) : rout * mem :=
  match o, v with
  | NewArray_ p n, OVal _ => (ROut v, if nonzero n then m ++ [Some (BTemp p (repeat 0%Z (Z.to_nat n)))] else m)
  | GetStringChars_ h, OVal (RInts l) =>
      (RPtr (PHeap (length m)) (match h with Some _ => Some true | None => None end), m ++ [Some (BChars l)])
  | GetStringUTFChars_ h, OVal _ => (RPtr (text_ptr h s) (Some false), m)
  | GetArrayElements_ _ _, OVal (RRef (Some a)) => (RPtr (PElems a) (Some false), m)
  | GetArrayElements_ _ _, OVal _ => (RPtr PNull (Some false), m)
  | _, _ => (ROut v, m)
  end.

(** One access or call; [None]: undefined behaviour. *)
Definition rstep (t : tid) (o : rop) (r : rst) : option (rout * rst) :=
  match o with
  | RVm o =>
      match step G t o (r_vm r) with
      | Some (v, s') => let (x, m) := native o (r_vm r) v (r_mem r) in Some (x, mkRst s' m)
      | None => None
      end
  (* string.cpp 49-52: delete[] of the pointer, whatever the string is; deleting a null pointer does nothing,
     deleting something else than a live block of GetStringChars is undefined *)
  | RReleaseStringChars _ PNull => Some (RDone, r)
  | RReleaseStringChars _ (PHeap b) =>
      match nth_error (r_mem r) b with
      | Some (Some (BChars _)) => Some (RDone, mkRst (r_vm r) (list_set (r_mem r) b None))
      | _ => None
      end
  | RReleaseStringChars _ _ => None
  (* string.cpp 72-74, array.cpp 44-47: nothing *)
  | RReleaseStringUTFChars _ _ | RReleaseArrayElements _ _ _ => Some (RDone, r)
  | RRead PNull _ => None
  | RRead (PHeap b) k =>
      match nth_error (r_mem r) b with
      | Some (Some x) => match nth_error (cells x) k with Some z => Some (RCell z, r) | None => None end
      | _ => None
      end
  (* the bytes of std::string and the zero after them *)
  | RRead (PText i) k =>
      match lookup (r_vm r) i with
      | Some x =>
          match o_pay x with
          | PString b => match nth_error (map byte b ++ [0%Z]) k with Some z => Some (RCell z, r) | None => None end
          | _ => None
          end
      | None => None
      end
  | RRead PLit k => match k with 0 => Some (RCell 0%Z, r) | _ => None end
  | RRead (PElems a) k =>
      match step G t (ElementsRead_ a k) (r_vm r) with
      | Some (OVal (RInt z), s') => Some (RCell z, mkRst s' (r_mem r))
      | _ => None
      end
  | RWrite (PHeap b) k z =>
      match nth_error (r_mem r) b with
      | Some (Some x) =>
          if (k <? length (cells x))%nat then Some (RDone, mkRst (r_vm r) (list_set (r_mem r) b (Some (set_cells x k z)))) else None
      | _ => None
      end
  | RWrite (PElems a) k z =>
      match step G t (ElementsWrite_ a k z) (r_vm r) with
      | Some (OVal _, s') => Some (RDone, mkRst s' (r_mem r))
      | _ => None
      end
  (* the text of a string and the literal are const *)
  | RWrite _ _ _ => None
  end.

Definition revent := (tid * rop)%type.
Fixpoint rexec (l : list revent) (r : rst) : option (list rout * rst) :=
  match l with
  | [] => Some ([], r)
  | (t, o) :: q =>
      match rstep t o r with
      | None => None
      | Some (v, r') => match rexec q r' with Some (vs, r'') => Some (v :: vs, r'') | None => None end
      end
  end.

Definition rinit (t0 : tid) : rst := mkRst (init_vm G t0) [].
Definition rreachable (t0 : tid) (r : rst) : Prop := exists l vs, rexec l (rinit t0) = Some (vs, r).
End Cfg.
