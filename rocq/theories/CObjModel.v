(** Arrays of objects as C++ code makes and uses them: elements, assignment of pointers, views as arrays of a base class.
    (array.h 91-260: [Arrayguard], [impl::Array<Object>], [impl::Array<Y, void, false>], [ArrayBaseImpl])

    Simplified: classes derive from one class each; the storage of an array is part of it (copies of array objects
    are in CCopyModel.v); all accesses are of one thread. *)
From Verif Require Import Base VmState.
Set Implicit Arguments.
Unset Strict Implicit.
Local Open Scope Z_scope.

(** A C++ class: [[]] is jnivm::Object, [n :: y] is a class derived from class [y]. *)
Definition cty := list nat.
Fixpoint cty_eqb (x y : cty) : bool :=
  match x, y with
  | [], [] => true
  | a :: x, b :: y => Nat.eqb a b && cty_eqb x y
  | _, _ => false
  end.
(** [dynamic_cast<Z*>] of an object of class [d] succeeds *)
Fixpoint derives (d z : cty) : bool :=
  cty_eqb d z || match d with _ :: d => derives d z | [] => false end.
(** The class below [y] on the way to [z], which derives from [y]. *)
Fixpoint below (y z : cty) : cty :=
  match z with
  | [] => []
  | n :: z' => if cty_eqb z' y then z else below y z'
  end.

(** An object: its class, its content, the shared pointers of user code, whether it is a variable (not made by
    make_shared) and whether that variable has ended. *)
Record cobj := mkObj { ob_ty : cty; ob_val : Z; ob_refs : nat; ob_auto : bool; ob_gone : bool }.
(** An array: class of the elements; the elements, [None] for a default constructed array, which has no storage. *)
Record carr := mkCarr { ca_ty : cty; ca_elems : option (list (option nat)) }.
(** [None]: destroyed. *)
Record ost := mkO { o_objs : list cobj; o_arrs : list (option carr) }.
Definition oinit : ost := mkO [] [].

Definition carray (s : ost) (a : nat) : option carr := match nth_error (o_arrs s) a with Some x => x | None => None end.
Definition oset (s : ost) (x : nat) (o : cobj) : ost := mkO (list_set (o_objs s) x o) (o_arrs s).
Definition aput (s : ost) (a : nat) (c : option carr) : ost := mkO (o_objs s) (list_set (o_arrs s) a c).

Definition holds (x : nat) (c : option carr) : bool :=
  match c with
  | Some c => match ca_elems c with
              | Some l => existsb (fun e => match e with Some y => Nat.eqb x y | None => false end) l
              | None => false end
  | None => false
  end.
(** A variable until it ends, another object as long as a shared pointer of user code or an array refers to it. *)
Definition alive (s : ost) (x : nat) : bool :=
  match nth_error (o_objs s) x with
  | None => false
  | Some o => if ob_auto o then negb (ob_gone o) else (0 <? ob_refs o)%nat || existsb (holds x) (o_arrs s)
  end.

Inductive oop :=
| ONew (z : cty) (v : Z)                       (* std::make_shared<Z>(v), kept in a variable *)
| OAuto (z : cty) (v : Z)                      (* Z x(v) *)
| OEnd (x : nat)                               (* the end of its scope *)
| OHold (x : nat) | ODrop (x : nat)            (* one shared pointer more, one less *)
| OValue (x : nat) | OPut (x : nat) (v : Z)    (* the content of the object *)
| AEmpty (z : cty) | ANew (z : cty) (n : Z)    (* Array<Z>(), Array<Z>(n) *)
| AGet (a : nat) (y : cty) (i : Z)             (* std::shared_ptr<Y> p = array[i], where array is an Array<Y>& *)
| ANull (a : nat) (y : cty) (i : Z)            (* array[i] = nullptr of type std::shared_ptr<Y> or Y* *)
| AShared (a : nat) (y : cty) (i : Z) (x : nat)          (* array[i] = a shared pointer to x *)
| ARaw (a : nat) (y : cty) (i : Z) (w : cty) (x : nat)   (* array[i] = a W* or W& that is x *)
| ASize (a : nat)
| ADestroy (a : nat).
Inductive oout := DDone | DNew (x : nat) | DVal (z : Z) | DRef (x : option nat) | DThrow.

Section Std.
(** The feature macro __cpp_lib_enable_shared_from_this (array.h 122, 136): C++17 and later. *)
Variable cxx17 : bool.

Definition slot (c : carr) (i : Z) : option (list (option nat) * nat) :=
  match ca_elems c with
  | Some l => if (0 <=? i) && (i <? Z.of_nat (length l)) then Some (l, Z.to_nat i) else None
  | None => None
  end.
(** [Set] of the view as array of [y] (array.h 173-175, 199-201, 248-254): for a view of another class than that of
    the elements the overrider is the one of the class below [y], and casts to it.  The cast comes before the access. *)
Definition set_ (s : ost) (a : nat) (c : carr) (y : cty) (i : Z) (v : option nat) : option (oout * ost) :=
  let accepted := match v with
                  | None => true
                  | Some x => match nth_error (o_objs s) x with
                              | Some o => cty_eqb y (ca_ty c) || derives (ob_ty o) (below y (ca_ty c))
                              | None => false end
                  end in
  if accepted then
    match slot c i with
    | Some (l, k) => Some (DDone, aput s a (Some (mkCarr (ca_ty c) (Some (list_set l k v)))))
    | None => None
    end
  else Some (DThrow, s).
(** The array that [a] is, seen as an array of [y]; [None] also if the program does not compile *)
Definition view (s : ost) (a : nat) (y : cty) : option carr :=
  match carray s a with
  | Some c => if derives (ca_ty c) y then Some c else None
  | None => None
  end.

(** One operation; [None]: undefined behaviour, or a program that does not compile. *)
Definition ostep (o : oop) (s : ost) : option (oout * ost) :=
  match o with
  | ONew z v => Some (DNew (length (o_objs s)), mkO (o_objs s ++ [mkObj z v 1 false false]) (o_arrs s))
  | OAuto z v => Some (DNew (length (o_objs s)), mkO (o_objs s ++ [mkObj z v 0 true false]) (o_arrs s))
  | OEnd x =>
      match nth_error (o_objs s) x with
      | Some o => if ob_auto o && negb (ob_gone o) then Some (DDone, oset s x (mkObj (ob_ty o) (ob_val o) 0 true true)) else None
      | None => None
      end
  | OHold x =>
      match nth_error (o_objs s) x with
      | Some o => if negb (ob_auto o) && (0 <? ob_refs o)%nat then Some (DDone, oset s x (mkObj (ob_ty o) (ob_val o) (S (ob_refs o)) false false)) else None
      | None => None
      end
  | ODrop x =>
      match nth_error (o_objs s) x with
      | Some o => if negb (ob_auto o) && (0 <? ob_refs o)%nat then Some (DDone, oset s x (mkObj (ob_ty o) (ob_val o) (Nat.pred (ob_refs o)) false false)) else None
      | None => None
      end
  | OValue x => match nth_error (o_objs s) x with Some o => if alive s x then Some (DVal (ob_val o), s) else None | None => None end
  | OPut x v =>
      match nth_error (o_objs s) x with
      | Some o => if alive s x then Some (DDone, oset s x (mkObj (ob_ty o) v (ob_refs o) (ob_auto o) (ob_gone o))) else None
      | None => None
      end
  (* array.h 177, 206: no storage *)
  | AEmpty z => Some (DNew (length (o_arrs s)), mkO (o_objs s) (o_arrs s ++ [Some (mkCarr z None)]))
  (* array.h 178, 205: [new std::shared_ptr<Y>[n]] throws for negative lengths; the elements are null *)
  | ANew z n =>
      if n <? 0 then Some (DThrow, s)
      else Some (DNew (length (o_arrs s)), mkO (o_objs s) (o_arrs s ++ [Some (mkCarr z (Some (repeat None (Z.to_nat n))))]))
  (* array.h 95-98, 170-172, 196-198, 245-247: without a check; user code holds the result *)
  | AGet a y i =>
      match view s a y with
      | None => None
      | Some c =>
          match slot c i with
          | None => None
          | Some (l, k) =>
              match nth_error l k with
              | Some (Some x) =>
                  match nth_error (o_objs s) x with
                  | Some o => Some (DRef (Some x), oset s x (mkObj (ob_ty o) (ob_val o) (S (ob_refs o)) false false))
                  | None => None
                  end
              | _ => Some (DRef None, s)
              end
          end
      end
  (* array.h 111-116, 128-130 *)
  | ANull a y i => match view s a y with Some c => set_ s a c y i None | None => None end
  (* array.h 111-116: the static_assert asks for a class derived from [y] *)
  | AShared a y i x =>
      match view s a y, nth_error (o_objs s) x with
      | Some c, Some o => if derives (ob_ty o) y && negb (ob_auto o) && alive s x then set_ s a c y i (Some x) else None
      | _, _ => None
      end
  (* array.h 118-132, 133-144: the object itself if it is managed by shared pointers and the library can tell,
     otherwise a copy, made by the copy constructor of [W] *)
  | ARaw a y i w x =>
      match view s a y, nth_error (o_objs s) x with
      | Some c, Some o =>
          if derives (ob_ty o) w && derives w y && alive s x then
            if cxx17 && negb (ob_auto o) then set_ s a c y i (Some x)
            else let s1 := mkO (o_objs s ++ [mkObj w (ob_val o) 0 false false]) (o_arrs s) in set_ s1 a c y i (Some (length (o_objs s)))
          else None
      | _, _ => None
      end
  (* array.h 36-38 *)
  | ASize a =>
      match carray s a with
      | Some c => Some (DVal (match ca_elems c with Some l => Z.of_nat (length l) | None => 0 end), s)
      | None => None
      end
  (* array.h 185-190, 214-219 *)
  | ADestroy a => match carray s a with Some _ => Some (DDone, aput s a None) | None => None end
  end.
Fixpoint oexec (l : list oop) (s : ost) : option (list oout * ost) :=
  match l with
  | [] => Some ([], s)
  | o :: q =>
      match ostep o s with
      | None => None
      | Some (v, s1) => match oexec q s1 with Some (vs, s2) => Some (v :: vs, s2) | None => None end
      end
  end.
Definition oreach (s : ost) : Prop := exists l vs, oexec l oinit = Some (vs, s).
End Std.
