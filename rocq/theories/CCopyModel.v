(** Copies of arrays of objects in C++ (array.h 17-42, 167-260).  No copy constructor and no assignment operator is declared, so
    the implicit ones copy the pointer to the storage and the length, and the destructor (array.h 185-190, 214-219) deletes the
    storage of each.  The storages are the arrays of [CObjModel]; this file adds the array objects, which refer to them.

    Simplified: a copy has the class of the array it is made of; copying an array through a view of it (slicing) is not
    modelled.  Moves are copies, as the destructor is declared.  Freed storage is not used again. *)
From Verif Require Import Base VmState CObjModel.
Set Implicit Arguments.
Unset Strict Implicit.
Local Open Scope Z_scope.

(** array.h 20-21 [data] (the number of the storage) and [length], with the class of the elements *)
Record var := mkVar { v_ty : cty; v_data : nat; v_len : Z }.
(** Objects and storages; the array objects, [None]: destroyed. *)
Record kst := mkK { k_mem : ost; k_vars : list (option var) }.
Definition kinit : kst := mkK oinit [].

Inductive kop :=
| KOp (o : oop)              (* an operation of [CObjModel], with the number of an array object *)
| KCopy (a : nat)            (* Array<Z> b(a), also std::make_shared<Array<Z>>(a) of jnitypes.h 59-75 *)
| KAssign (a b : nat).       (* a = b *)

Definition variable (s : kst) (a : nat) : option var := match nth_error (k_vars s) a with Some x => x | None => None end.
Definition put_var (s : kst) (a : nat) (x : option var) : kst := mkK (k_mem s) (list_set (k_vars s) a x).
(** The pointer of a default constructed array is null: there is no storage to share.  [CObjModel] numbers such an array too,
    so a copy gets a number of its own. *)
Definition pointer (s : kst) (x : var) : var * ost :=
  match carray (k_mem s) (v_data x) with
  | Some (mkCarr z None) => (mkVar (v_ty x) (length (o_arrs (k_mem s))) (v_len x), mkO (o_objs (k_mem s)) (o_arrs (k_mem s) ++ [Some (mkCarr z None)]))
  | _ => (x, k_mem s)
  end.
(** What the operation refers to: the storage of the array object *)
Definition redirect (o : oop) (n : nat) : oop :=
  match o with
  | AGet _ y i => AGet n y i
  | ANull _ y i => ANull n y i
  | AShared _ y i x => AShared n y i x
  | ARaw _ y i w x => ARaw n y i w x
  | _ => o
  end.

Section Std.
Variable cxx17 : bool.
(** An operation on the storage alone *)
Definition on_mem (o : oop) (s : kst) : option (oout * kst) :=
  match ostep cxx17 o (k_mem s) with Some (v, m) => Some (v, mkK m (k_vars s)) | None => None end.
(** The elements of [x].  Freed storage: casts that are refused come before the access, which is undefined as for a null pointer. *)
Definition on_array (o : oop) (x : var) (s : kst) : option (oout * kst) :=
  match carray (k_mem s) (v_data x) with
  | Some _ => on_mem (redirect o (v_data x)) s
  | None =>
      let arrs := o_arrs (k_mem s) in
      match ostep cxx17 (redirect o (length arrs)) (mkO (o_objs (k_mem s)) (arrs ++ [Some (mkCarr (v_ty x) None)])) with
      | Some (v, m) => Some (v, mkK (mkO (o_objs m) arrs) (k_vars s))
      | None => None
      end
  end.
(** array.h 177-178, 205-206: the constructors *)
Definition constructed (o : oop) (z : cty) (n : Z) (s : kst) : option (oout * kst) :=
  match ostep cxx17 o (k_mem s) with
  | Some (DNew b, m) => Some (DNew (length (k_vars s)), mkK m (k_vars s ++ [Some (mkVar z b n)]))
  | Some (v, m) => Some (v, mkK m (k_vars s))
  | None => None
  end.

(** One operation; [None]: undefined behaviour, or a program that does not compile. *)
Definition kstep (o : kop) (s : kst) : option (oout * kst) :=
  match o with
  | KOp (AEmpty z) => constructed (AEmpty z) z 0 s
  | KOp (ANew z n) => constructed (ANew z n) z n s
  (* array.h 95-147, 170-201, 225-254: through the pointer *)
  | KOp ((AGet a _ _ | ANull a _ _ | AShared a _ _ _ | ARaw a _ _ _ _) as o) =>
      match variable s a with Some x => on_array o x s | None => None end
  (* array.h 36-38: the length is in the array object *)
  | KOp (ASize a) => match variable s a with Some x => Some (DVal (v_len x), s) | None => None end
  (* array.h 185-190, 214-219 *)
  | KOp (ADestroy a) =>
      match variable s a with
      | Some x => match on_mem (ADestroy (v_data x)) s with Some (v, s1) => Some (v, put_var s1 a None) | None => None end
      | None => None
      end
  | KOp o => on_mem o s
  (* the implicit copy constructor *)
  | KCopy a =>
      match variable s a with
      | Some x => let (y, m) := pointer s x in Some (DNew (length (k_vars s)), mkK m (k_vars s ++ [Some y]))
      | None => None
      end
  (* the implicit assignment: the former storage of [a] is not freed *)
  | KAssign a b =>
      match variable s a, variable s b with
      | Some x, Some y => if cty_eqb (v_ty x) (v_ty y) then let (y, m) := pointer s y in Some (DDone, mkK m (list_set (k_vars s) a (Some y))) else None
      | _, _ => None
      end
  end.
Fixpoint kexec (l : list kop) (s : kst) : option (list oout * kst) :=
  match l with
  | [] => Some ([], s)
  | o :: q =>
      match kstep o s with
      | None => None
      | Some (v, s1) => match kexec q s1 with Some (vs, s2) => Some (v :: vs, s2) | None => None end
      end
  end.
Definition kreach (s : kst) : Prop := exists l vs, kexec l kinit = Some (vs, s).
End Std.
