(** Arrays of numbers as C++ code makes and uses them: constructors, storage, ownership, copies, destructor.
    (array.h 17-89, [impl::Array<void>] and [impl::Array<T, OrgType, true>])

    The part of an array that is a Java object (its class and its lock, object.h 22-29) plays no role here.  Memory is
    named by where it comes from; addresses of freed memory are not used again, while a real allocator may do that.
    Using freed memory is undefined behaviour in both cases. *)
From Verif Require Import Base VmState.
Set Implicit Arguments.
Unset Strict Implicit.
Local Open Scope Z_scope.

(** An element of type [T]; [None]: memory from [new T[n]] that was not written yet. *)
Definition cell := option Z.
(** The [n]-th block of user code, or the storage that the constructor of array number [a] allocated. *)
Inductive addr := PUser (n : nat) | PStore (a : nat).
(** A pointer [T*]: into a block, this many elements after its start. *)
Definition ptr := (addr * nat)%type.
(** array.h 20-21 [length], [data] and 47 [owner] *)
Record arr := mkArr { a_data : option ptr; a_len : Z; a_own : bool }.
(** Blocks of user code, storages (by the number of the array whose constructor ran) and arrays; [None]: freed or destroyed,
    for storages also: the constructor allocated nothing. *)
Record cst := mkC { c_user : list (option (list cell)); c_store : list (option (list cell)); c_arr : list (option arr) }.

Inductive cop :=
| CAlloc (l : list cell)                          (* user code: a block with these elements *)
| CFree (p : addr)                                (* user code: delete[] *)
| CRead (p : ptr) | CWrite (p : ptr) (z : Z)      (* user code: *p, *p = z *)
| CEmpty                                          (* Array() *)
| CLength (n : Z)                                 (* Array(n) *)
| CVector (l : list Z)                            (* Array(vec) *)
| CData (p : option ptr) (n : Z) (copy : bool)    (* Array(p, n, copy); Array(p, n) is Array(p, n, true), array.h 68 *)
| CCopy (a : nat)                                 (* Array b(a): the implicit copy constructor *)
| CAssign (a b : nat)                             (* a = b: the implicit assignment *)
| CGet (a : nat) (k : Z) | CSet (a : nat) (k : Z) (z : Z)   (* a[k], a[k] = z *)
| CSize (a : nat)                                 (* a.getSize() *)
| CArray (a : nat)                                (* a.getArray() *)
| CDestroy (a : nat).                             (* the destructor *)
Inductive cout := CDone | CNew (n : nat) | CVal (z : Z) | CPtr (p : option ptr) | CThrow.

(** What is stored at an address; [None]: nothing any more. *)
Definition block (s : cst) (p : addr) : option (list cell) :=
  match p with
  | PUser n => match nth_error (c_user s) n with Some x => x | None => None end
  | PStore a => match nth_error (c_store s) a with Some x => x | None => None end
  end.
Definition set_block (s : cst) (p : addr) (x : option (list cell)) : cst :=
  match p with
  | PUser n => mkC (list_set (c_user s) n x) (c_store s) (c_arr s)
  | PStore a => mkC (c_user s) (list_set (c_store s) a x) (c_arr s)
  end.
Definition array (s : cst) (a : nat) : option arr := match nth_error (c_arr s) a with Some x => x | None => None end.
Definition set_array (s : cst) (a : nat) (x : option arr) : cst := mkC (c_user s) (c_store s) (list_set (c_arr s) a x).

(** [p[k]]: the block and the position, if it is inside of a live block *)
Definition place (s : cst) (p : option ptr) (k : Z) : option (addr * nat * list cell) :=
  match p with
  | None => None
  | Some (b, o) =>
      match block s b with
      | None => None
      | Some l => let i := Z.of_nat o + k in
                  if (0 <=? i) && (i <? Z.of_nat (length l)) then Some (b, Z.to_nat i, l) else None
      end
  end.
(** Reading; a number that was never written is indeterminate, using it is undefined behaviour. *)
Definition read (s : cst) (p : option ptr) (k : Z) : option (cout * cst) :=
  match place s p k with
  | Some (_, i, l) => match nth_error l i with Some (Some z) => Some (CVal z, s) | _ => None end
  | None => None
  end.
Definition write (s : cst) (p : option ptr) (k z : Z) : option (cout * cst) :=
  match place s p k with
  | Some (b, i, l) => Some (CDone, set_block s b (Some (list_set l i (Some z))))
  | None => None
  end.

(** A constructor that ends: the next array, with the storage that it allocated. *)
Definition construct (s : cst) (store : option (list cell)) (x : arr) : option (cout * cst) :=
  Some (CNew (length (c_arr s)), mkC (c_user s) (c_store s ++ [store]) (c_arr s ++ [Some x])).
(** [new T[n]] of the constructor that is running: where the storage is *)
Definition mine (s : cst) : option ptr := Some (PStore (length (c_arr s)), 0%nat).
(** [memcpy(_, data, sizeof(T) * n)]: the elements copied; copying nothing is taken to be harmless for any pointer. *)
Definition copied (s : cst) (p : option ptr) (n : Z) : option (list cell) :=
  if n =? 0 then Some []
  else match p with
       | None => None
       | Some (b, o) =>
           match block s b with
           | Some l => if Z.of_nat o + n <=? Z.of_nat (length l) then Some (firstn (Z.to_nat n) (skipn o l)) else None
           | None => None
           end
       end.
(** The conversion of the size of a vector to [jsize], array.h 54. *)
Definition jsize_of (n : nat) : Z := (Z.of_nat n + 2147483648) mod 4294967296 - 2147483648.

(** One operation; [None]: undefined behaviour. *)
Definition cstep (o : cop) (s : cst) : option (cout * cst) :=
  match o with
  | CAlloc l => Some (CNew (length (c_user s)), mkC (c_user s ++ [Some l]) (c_store s) (c_arr s))
  | CFree p => match block s p with Some _ => Some (CDone, set_block s p None) | None => None end
  | CRead (b, o) => read s (Some (b, o)) 0
  | CWrite (b, o) z => write s (Some (b, o)) 0 z
  (* array.h 51-53: null, not owned *)
  | CEmpty => construct s None (mkArr None 0 false)
  (* array.h 50: [new T[length]] throws std::bad_array_new_length for negative lengths, and does not initialise *)
  | CLength n => if n <? 0 then Some (CThrow, s) else construct s (Some (repeat None (Z.to_nat n))) (mkArr (mine s) n true)
  (* array.h 54-58 *)
  | CVector l => construct s (Some (map Some l)) (mkArr (mine s) (jsize_of (length l)) true)
  (* array.h 60-66 *)
  | CData p n true =>
      if n <? 0 then Some (CThrow, s)
      else match copied s p n with Some l => construct s (Some l) (mkArr (mine s) n true) | None => None end
  | CData p n false => construct s None (mkArr p n false)
  (* no copy constructor is declared: data, length and owner are copied *)
  | CCopy a => match array s a with Some x => construct s None x | None => None end
  | CAssign a b =>
      match array s a, array s b with Some _, Some y => Some (CDone, set_array s a (Some y)) | _, _ => None end
  (* array.h 82-87: without a check *)
  | CGet a k => match array s a with Some x => read s (a_data x) k | None => None end
  | CSet a k z => match array s a with Some x => write s (a_data x) k z | None => None end
  (* array.h 36-38 *)
  | CSize a => match array s a with Some x => Some (CVal (a_len x), s) | None => None end
  (* array.h 76-78 *)
  | CArray a => match array s a with Some x => Some (CPtr (a_data x), s) | None => None end
  (* array.h 70-74: [delete[]] of the data if owned; of a null pointer it does nothing, of anything that is not the
     start of a live block it is undefined *)
  | CDestroy a =>
      match array s a with
      | None => None
      | Some x =>
          if a_own x then
            match a_data x with
            | None => Some (CDone, set_array s a None)
            | Some (b, 0%nat) => match block s b with Some _ => Some (CDone, set_array (set_block s b None) a None) | None => None end
            | Some _ => None
            end
          else Some (CDone, set_array s a None)
      end
  end.

Fixpoint cexec (l : list cop) (s : cst) : option (list cout * cst) :=
  match l with
  | [] => Some ([], s)
  | o :: q =>
      match cstep o s with
      | None => None
      | Some (v, s1) => match cexec q s1 with Some (vs, s2) => Some (v :: vs, s2) | None => None end
      end
  end.
Definition cinit : cst := mkC [] [] [].
