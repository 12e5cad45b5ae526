(** The reference functions of the C++ interface FakeJni and the classes of objects whose C++ class has a descriptor
    (include/fake-jni/fake-jni.h 100-115, 254-281; src/fake-jni/fake-jni.cpp 53-55, 98-100, 175-182; src/fake-jni/jvm.cpp 38-44).
    Model definitions only, composed of the operations of the VM model, so that every state they lead to is one that a history of
    operations leads to. *)
From Verif Require Import Base VmState VmModel VmStep.
Set Implicit Arguments.
Unset Strict Implicit.
Local Open Scope vm_scope.

(** A C++ class [n] with DEFINE_CLASS_NAME or derived from such a class (fake-jni.h 254-263): [Some (k, inst, name)] if [k] is the class
    whose macro defines the virtual function getClassInternal that objects of [n] have ([k] is [n] or the nearest base class with the macro),
    [name] its getClassName() and [inst] tells whether it can be constructed without arguments. *)
Definition descriptors := nat -> option (nat * bool * str).

Section Cfg.
Variable G : cfg.
Variable D : descriptors.
Variable t : tid.

(** fake-jni.cpp 98-100 Env::resolveReference: a std::shared_ptr *)
Definition resolveReference (h : option oid) (s : st) : option (obs * st) := step G t (UHold_ TObject h) s.
(** fake-jni.h 111-113 Env::createLocalReference (jnitypes.h 297-314): null for a null pointer *)
Definition createLocalReference (o : option oid) (s : st) : option (obs * st) :=
  match o with
  | None => Some (OVal (RRef None), s)
  | Some i => step G t (UToJNI_ TObject i) s
  end.
(** fake-jni.cpp 53-55 Jvm::createGlobalReference: the pointer itself is the handle passed to NewGlobalRef; GetEnv() is null, hence undefined
    behaviour, if the thread is not attached *)
Definition createGlobalReference (o : option oid) (s : st) : option (obs * st) := step G t (NewGlobalRef_ o) s.
(** jvm.cpp 38-44 Jvm::getClasses: all classes of the registry; the order is left open by C++ *)
Definition getClasses (s : st) : list oid := map snd (s_classes s).

(** The descriptor an object's getClassInternal() is defined by *)
Definition descriptor_of (i : oid) (s : st) : option (nat * bool * str) :=
  match lookup s i with
  | Some o => match o_pay o with PUser n _ => D n | _ => None end
  | None => None
  end.
(** fake-jni.h 264-270 getDescriptor(): [GetClass<name>(getClassName())] binds the type to the class on every call.  The call of
    registerClass() is not reached, since GetClass has just set [baseclasses] (property C85). *)
Definition getDescriptor (d : nat * bool * str) (s : st) : option (oid * st) :=
  match d with
  | (k, inst, name) =>
      match step G t (UBind_ k inst name) s with
      | Some (OVal (RRef (Some c)), s') => Some (c, s')
      | _ => None
      end
  end.
(** The class pointer is converted to a local reference (jnitypes.h 297-314); the std::shared_ptr<Class> is a temporary. *)
Definition class_to_jni (c : oid) (s : st) : option (obs * st) :=
  match step G t (UHold_ TClass (Some c)) s with
  | Some (OVal (RRef (Some _)), s1) =>
      match step G t (UToJNI_ TClass c) s1 with
      | Some (OVal (RRef r), s2) =>
          match step G t (UDrop_ c) s2 with
          | Some (OVal _, s3) => Some (OVal (RRef r), s3)
          | _ => None
          end
      | _ => None
      end
  | _ => None
  end.
(** The object a handle leads to.  Simplified: the temporary std::shared_ptr is not kept during the call, since the handle keeps the object. *)
Definition receiver (h : option oid) (s : st) : option oid :=
  match step G t (UHold_ TObject h) s with
  | Some (OVal (RRef r), _) => r
  | _ => None
  end.
Definition described (h : option oid) (s : st) : option (nat * bool * str) :=
  match receiver h s with Some i => descriptor_of i s | None => None end.

(** vm.cpp 241-243 GetObjectClass with the getClassInternal of a descriptor *)
Definition GetObjectClass_d (h : option oid) (s : st) : option (obs * st) :=
  match described h s with
  | None => step G t (GetObjectClass_ h) s
  | Some d =>
      match getDescriptor d s with
      | Some (c, s1) => class_to_jni c s1
      | None => None
      end
  end.
(** vm.cpp 244-246 IsInstanceOf *)
Definition IsInstanceOf_d (h hc : option oid) (s : st) : option (obs * st) :=
  match described h s with
  | None => step G t (IsInstanceOf_ h hc) s
  | Some d =>
      match GetObjectClass_d h s with
      | Some (OVal (RRef k), s1) => step G t (IsAssignableFrom_ k hc) s1
      | _ => None
      end
  end.
(** method.cpp 191-223 Call<Type>MethodA of a method with an implementation, once the class of the receiver is known *)
Definition dispatch (T : rty) (obj : option oid) (cl : oid) (i : oid) (args : list arg) : M callres :=
  j <- findVirtualOverload (Some cl) i ;;
  x <- get_mth j ;;
  match m_handle x with
  | None => undef
  | Some hd => enter t true hd KInst false T obj [cl] args
  end.
Definition CallMethodA_d (T : rty) (obj : option oid) (id : option oid) (args : list arg) (s : st) : option (obs * st) :=
  match described obj s, id with
  | Some d, Some i =>
      match get_mth i s with
      | Ret m _ =>
          match m_handle m with
          | None => Some (OVal (RCall Default), s)
          | Some _ =>
              match GetObjectClass_d obj s with
              | Some (OVal (RRef (Some c)), s1) =>
                  match dispatch T obj c i args s1 with
                  | Ret v s2 => Some (OVal (RCall v), finish s2)
                  | Thr e s2 => Some (OExn e, finish s2)
                  | _ => None
                  end
              | _ => None
              end
          end
      | _ => None
      end
  | _, _ => step G t (CallMethodA_ T obj id args) s
  end.
(** fake-jni.cpp 175-182 Object::getClass() of an existing object: no reference is made.  [inr]: a C++ exception. *)
Definition getClass (i : oid) (s : st) : option ((oid + exn) * st) :=
  match lookup s i, get_env s t with
  | None, _ => None
  | _, None => Some (inr (Err (S_ "No Env in this thread")), s)
  | Some _, Some _ =>
      match descriptor_of i s with
      | Some d =>
          match getDescriptor d s with
          | Some (c, s1) => Some (inl c, s1)
          | None => None
          end
      | None =>
          match clazz_lock i s with
          | Ret (Some c) _ => Some (inl c, s)
          | Ret None _ => Some (inr (Err (S_ "Invalid Object")), s)
          | _ => None
          end
      end
  end.
End Cfg.
