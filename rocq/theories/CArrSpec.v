(** What C++ code expects of arrays of numbers: an array is a sequence of numbers of its own, or a view of memory of the caller. *)
From Verif Require Import Base VmState CArrModel.
Set Implicit Arguments.
Unset Strict Implicit.
Local Open Scope Z_scope.

Inductive aval := Own (l : list cell) | View (p : option ptr) (n : Z).
(** Memory of user code and arrays. *)
Record sst := mkS { u_mem : list (option (list cell)); u_arr : list (option aval) }.
Definition sinit : sst := mkS [] [].

Definition val (s : sst) (a : nat) : option aval := match nth_error (u_arr s) a with Some x => x | None => None end.
(** The elements at an address: the block of user code, or those of the array. *)
Definition content (s : sst) (p : addr) : option (list cell) :=
  match p with
  | PUser n => match nth_error (u_mem s) n with Some x => x | None => None end
  | PStore a => match val s a with Some (Own l) => Some l | _ => None end
  end.
Definition put (s : sst) (p : addr) (l : list cell) : sst :=
  match p with
  | PUser n => mkS (list_set (u_mem s) n (Some l)) (u_arr s)
  | PStore a => mkS (u_mem s) (list_set (u_arr s) a (Some (Own l)))
  end.
(** The elements that [a[k]] ranges over, and the position of [k] in them. *)
Definition elems (s : sst) (a : nat) (k : Z) : option (addr * Z) :=
  match val s a with
  | Some (Own _) => Some (PStore a, k)
  | Some (View (Some (p, o)) _) => Some (p, Z.of_nat o + k)
  | _ => None
  end.
Definition at_ (l : list cell) (i : Z) : option cell := if i <? 0 then None else nth_error l (Z.to_nat i).
Definition get_at (s : sst) (q : option (addr * Z)) : option (cout * sst) :=
  match q with
  | Some (p, i) => match content s p with
                   | Some l => match at_ l i with Some (Some z) => Some (CVal z, s) | _ => None end
                   | None => None end
  | None => None
  end.
Definition put_at (s : sst) (q : option (addr * Z)) (z : Z) : option (cout * sst) :=
  match q with
  | Some (p, i) => match content s p with
                   | Some l => match at_ l i with Some _ => Some (CDone, put s p (list_set l (Z.to_nat i) (Some z))) | None => None end
                   | None => None end
  | None => None
  end.
Definition add (s : sst) (v : aval) : option (cout * sst) := Some (CNew (length (u_arr s)), mkS (u_mem s) (u_arr s ++ [Some v])).
Definition size (v : aval) : Z := match v with Own l => Z.of_nat (length l) | View _ n => n end.
Definition start (a : nat) (v : aval) : option ptr := match v with Own _ => Some (PStore a, 0%nat) | View p _ => p end.
(** [n] numbers from [p] on. *)
Definition range (s : sst) (p : option ptr) (n : nat) : option (list cell) :=
  match n, p with
  | O, _ => Some []
  | _, None => None
  | _, Some (b, o) =>
      match content s b with
      | Some l => if (o + n <=? length l)%nat then Some (firstn n (skipn o l)) else None
      | None => None
      end
  end.

(** Only for operations that are [plain], see below. *)
Definition sstep (o : cop) (s : sst) : option (cout * sst) :=
  match o with
  | CAlloc l => Some (CNew (length (u_mem s)), mkS (u_mem s ++ [Some l]) (u_arr s))
  | CFree (PUser n) => match content s (PUser n) with Some _ => Some (CDone, mkS (list_set (u_mem s) n None) (u_arr s)) | None => None end
  | CRead (b, i) => get_at s (Some (b, Z.of_nat i))
  | CWrite (b, i) z => put_at s (Some (b, Z.of_nat i)) z
  | CEmpty => add s (View None 0)
  | CLength n => if n <? 0 then Some (CThrow, s) else add s (Own (repeat None (Z.to_nat n)))
  | CVector l => add s (Own (map Some l))
  | CData p n true => if n <? 0 then Some (CThrow, s) else match range s p (Z.to_nat n) with Some l => add s (Own l) | None => None end
  | CData p n false => add s (View p n)
  | CGet a k => get_at s (elems s a k)
  | CSet a k z => put_at s (elems s a k) z
  | CSize a => match val s a with Some v => Some (CVal (size v), s) | None => None end
  | CArray a => match val s a with Some v => Some (CPtr (start a v), s) | None => None end
  | CDestroy a => match val s a with Some _ => Some (CDone, mkS (u_mem s) (list_set (u_arr s) a None)) | None => None end
  | _ => None
  end.
Fixpoint sexec (l : list cop) (s : sst) : option (list cout * sst) :=
  match l with
  | [] => Some ([], s)
  | o :: q =>
      match sstep o s with
      | None => None
      | Some (v, s1) => match sexec q s1 with Some (vs, s2) => Some (v :: vs, s2) | None => None end
      end
  end.
(** Everything but copying an array object, deleting the storage of an array by hand, and vectors with more elements than a [jsize] can count. *)
Definition plain (o : cop) : bool :=
  match o with
  | CCopy _ | CAssign _ _ | CFree (PStore _) => false
  | CVector l => Z.of_nat (length l) <? 2147483648
  | _ => true
  end.
