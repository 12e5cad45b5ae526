(** FakeJni::createMainMethod (fake-jni.cpp 184-194), put together from class lookups, the hooks of [WrapModel] and the operations of [VmStep]. *)
From Verif Require Import Base VmState VmModel VmStep BaronModel WrapModel DescModel InvokeModel.
Set Implicit Arguments.
Unset Strict Implicit.
Local Open Scope char_scope.
Local Open Scope vm_scope.

(** fake-jni.cpp 185, 190 *)
Definition main_class : str := S_ "fakejni/impl/createMainMethod".
(** The callback: std::function<void (std::shared_ptr<JArray<JString>>)>.  The other overload (189-194) hooks a lambda of the same type, which calls the callback
    with args.get(). *)
Definition main_callback : callable := Fn Cvoid [Cshared (ClArr ClString)].

Section Cfg.
Variables (G : cfg) (own : ccls -> option str).

(** [findClass] is virtual.  [None]: FakeJni::Jvm, fake-jni.cpp 49-51, which does not create classes; [Some r]: Baron::Jvm with deny rules [r], jvm.cpp 150-158 *)
Definition jvm_findClass (k : option rules) (t : tid) (n : str) : M (option oid) :=
  match k with
  | None => the_env t ;;; find_class G true n
  | Some r => findClass G r t n
  end.
(** jnitypes.h 229-243: building the signature looks up the array classes [l].  Simplified: InstantiateArray of the class of arrays of strings is not recorded. *)
Fixpoint look_up (l : list str) (s : st) : option st :=
  match l with
  | [] => Some s
  | n :: r => match find_class G false n s with Ret _ s1 => look_up r s1 | _ => None end
  end.
(** fake-jni.cpp 184-194, callback [id] (class.h 113, hookManager.h 46-65).  [None]: undefined behaviour; here the class found is dereferenced without a check (186, 191),
    as is the entry of the table of types (jnitypes.h 280). *)
Definition createMainMethod (k : option rules) (t : tid) (id : nat) (s : st) : option (res unit * st) :=
  match jvm_findClass k t main_class s with
  | Ret (Some c) s1 =>
      match Hook (names_in own s1) (mine_in s1 c) id main_callback with
      | None => None
      | Some o =>
          if existsb (null_entry s1) (Return main_callback :: params main_callback) then None
          else match look_up (fst o) s1 with
               | None => None
               | Some s2 =>
                   match snd o with
                   | Ok hs => match run_ops G t (map (hook_op c main_name) hs) (finish s2) with Some s3 => Some (Ok tt, s3) | None => None end
                   | Thrown e => Some (Thrown e, finish s2)
                   | _ => None
                   end
               end
      end
  | _ => None
  end.
End Cfg.
