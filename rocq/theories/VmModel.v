(** The JNI functions of jnivm on the state of [VmState].  Model definitions only. *)
From Verif Require Import Base SigModel VmState.
From Verif Require UtfModel.
Set Implicit Arguments.
Local Open Scope vm_scope.
Local Open Scope char_scope.

Definition err {A} (m : str) : M A := throw (Err m).

(** ** Run time types *)

Section Cfg.
Variable G : cfg.

(** Is user class [n] derived from (or equal to) user class [m]?  The C++ class graph is finite and
    acyclic; [fuel] bounds the depth of the search. *)
Fixpoint uderives (fuel : nat) (n m : nat) : bool :=
  Nat.eqb n m ||
  match fuel with
  | 0 => false
  | S fuel' =>
      match ubases G n with
      | None => false
      | Some l => existsb (fun b => match b with Some k => uderives fuel' k m | None => false end) l
      end
  end.

(** [dynamic_cast<T*>(obj)] for an object with contents [p].  User classes are numbered such that
    bases have smaller numbers, hence depth [n] suffices. *)
Definition isa (p : pay) (T : ty) : bool :=
  match T, p with
  | TObject, _ => true
  | TUser m, PUser n _ => uderives n n m
  | TClass, PClass _ => true
  | TString, PString _ => true
  | TBuffer, PBuffer _ _ => true
  | TThrowable, PThrow _ => true
  | TMethod, PMethod _ => true
  | TField, PField _ => true
  | TWeak, PWeak _ => true
  | TGlobal, PGlobal _ => true
  | TVArr, PPrim _ _ => true
  | TVArr, PArr _ _ => true
  | TPArr q, PPrim p _ => pty_eqb p q
  | TArr None, PArr _ _ => true
  | TArr (Some m), PArr (Some n) _ => uderives n n m
  | _, _ => false
  end.

(** ** References *)

(** jnitypes.h 319-339 [UnpackJObject<T>] up to the final dynamic_cast: follows weak and global
    wrappers.  [Ok None]: null (an expired weak reference). *)
Fixpoint unwrap (fuel : nat) (s : st) (i : oid) : res (option oid) :=
  match fuel with
  | 0 => Fuel
  | S fuel' =>
      match lookup s i with
      | None => UB
      | Some o =>
          match o_pay o with
          | PWeak t => if live s t then unwrap fuel' s t else Ok None
          | PGlobal t => unwrap fuel' s t
          | _ => Ok (Some i)
          end
      end
  end.

Definition bad_ref : str := S_ "Invalid Reference, Unexpected Type".

(** jnitypes.h 319-339, 381-383 [JNITypes<shared_ptr<T>>::JNICast(env, h)] for [T] other than
    Weak and Global: null for null and expired weak references. *)
Definition jnicast (T : ty) (h : option oid) : M (option oid) :=
  match h with
  | None => ret None
  | Some i =>
      r <- (fun s => of_res (unwrap (S i) s i) s) ;;
      match r with
      | None => ret None
      | Some j =>
          o <- deref j ;;
          if isa (o_pay o) T then ret (Some j) else err bad_ref
      end
  end.

(** jnitypes.h 340-357: [JNICast<Weak>] and [JNICast<Global>] do not follow wrappers. *)
Definition jnicast_weak (h : option oid) : M (option oid) :=
  match h with
  | None => ret None
  | Some i =>
      o <- deref i ;;
      match o_pay o with
      | PWeak _ => ret (Some i)
      | _ => err (S_ "Invalid Reference, not a WeakGlobal Reference")
      end
  end.
Definition jnicast_global (h : option oid) : M (option oid) :=
  match h with
  | None => ret None
  | Some i =>
      o <- deref i ;;
      match o_pay o with
      | PGlobal _ => ret (Some i)
      | _ => err (S_ "Invalid Reference, not a Global Reference")
      end
  end.

(** A shared_ptr that is dereferenced without a null check. *)
Definition nonnull (o : option oid) : M oid :=
  match o with Some i => ret i | None => undef end.

(** [env->localframe.front().push_back(obj)] *)
Definition push_local (t : tid) (i : oid) : M unit :=
  e <- the_env t ;;
  match e_frames e with
  | f :: r => put_env t (env_frames e ((f ++ [i]) :: r))
  | [] => undef
  end.

(** jnitypes.h 286-295 [GetClass] *)
Definition type_class (s : st) (Y : ty) : option oid :=
  match get_type s Y with Some r => r | None => None end.

(** jnitypes.h 303-306: [if(!obj->clazz.lock()) obj->clazz = GetClass(env)] *)
Definition ensure_class (Y : ty) (i : oid) : M unit :=
  o <- deref i ;;
  s <- gets (fun s => s) ;;
  match o_clazz o with
  | Some c => if live s c then ret tt else set_clazz i (type_class s Y)
  | None => set_clazz i (type_class s Y)
  end.

(** jnitypes.h 297-314 [ToJNIType] of a non-null [shared_ptr<Y>]: sets the class of an object that
    has none (or whose class is gone) according to the static type [Y], adds a local reference to
    the innermost frame and returns the handle. *)
Definition to_jni (t : tid) (Y : ty) (i : oid) : M (option oid) :=
  ensure_class Y i ;;;
  push_local t i ;;;
  ret (Some i).
Definition to_jni_opt (t : tid) (Y : ty) (o : option oid) : M (option oid) :=
  match o with None => ret None | Some i => to_jni t Y i end.

(** ** Class registry *)

(** Components of [s] separated by [c]: what the loops of findclass.cpp visit with
    [pos = std::find(name, end, c); std::string(name, pos); name = pos + 1]. *)
Fixpoint split_on (c : ascii) (s : str) : list str :=
  match s with
  | [] => [[]]
  | x :: r =>
      if Ascii.eqb x c then [] :: split_on c r
      else match split_on c r with
           | h :: t => (x :: h) :: t
           | [] => [[x]]
           end
  end.

Definition new_cls (name prefix : str) : cls := mkCls name prefix [] [] [] [] None None None.

Definition cls_of (s : st) (i : oid) : option cls :=
  match lookup s i with
  | Some o => match o_pay o with PClass c => Some c | _ => None end
  | None => None
  end.

(** [std::find_if(classes, ..., name == sname)] *)
Definition find_cls (s : st) (l : list oid) (n : str) : option oid :=
  find (fun i => match cls_of s i with Some c => str_eqb (c_name c) n | None => false end) l.

(** [std::find_if(namespaces, ..., name == sname)] *)
Definition find_sub (s : st) (l : list nat) (n : str) : option nat :=
  find (fun k => match nth_error (s_ns s) k with
                 | Some x => str_eqb (n_name x) n | None => false end) l.

(** findclass.cpp 26-43: walk (and create, unless [zero]) the namespaces [segs] below [cur].
    [None]: not found and [returnZero]. *)
Fixpoint walk_ns (zero : bool) (cur : nat) (segs : list str) : M (option nat) :=
  match segs with
  | [] => ret (Some cur)
  | n :: r =>
      s <- gets (fun s => s) ;;
      match nth_error (s_ns s) cur with
      | None => undef
      | Some x =>
          match find_sub s (n_subs x) n with
          | Some k => walk_ns zero k r
          | None => if zero then ret None
                    else k <- new_ns cur n ;; walk_ns zero k r
          end
      end
  end.

(** Creation of a class in [InternalFindClass]: make_shared<Class>, name, nativeprefix and the entry
    of vm->classes (findclass.cpp 57-61, 72-76). *)
Definition create_cls (name prefix : str) : M oid :=
  i <- alloc (new_obj None (PClass (new_cls name prefix))) ;;
  set_class prefix i ;;;
  ret i.

(** [curc->classes.push_back(next)] *)
Definition add_inner (curc k : oid) : M unit :=
  upd_cls curc (fun c => mkCls (c_name c) (c_prefix c) (c_inner c ++ [k]) (c_fields c)
                               (c_methods c) (c_natives c) (c_inst c) (c_instarr c) (c_bases c)).

(** findclass.cpp 44-81, inner classes: [curc] is the enclosing class, [pre] the text of the name up
    to the component, [segs] the remaining components. *)
Fixpoint walk_inner (zero : bool) (curc : oid) (pre : str) (segs : list str) : M (option oid) :=
  match segs with
  | [] => ret (Some curc)
  | n :: r =>
      s <- gets (fun s => s) ;;
      c <- get_cls curc ;;
      match find_cls s (c_inner c) n with
      | Some k => walk_inner zero k (pre ++ n ++ ["$"]) r
      | None =>
          if zero then ret None
          else
            k <- create_cls n (pre ++ n) ;;
            add_inner curc k ;;;
            walk_inner zero k (pre ++ n ++ ["$"]) r
      end
  end.

(** findclass.cpp 44-81, first component (class in namespace [ns]), then the inner classes. *)
Definition walk_cls (zero : bool) (ns : nat) (pre : str) (segs : list str) : M (option oid) :=
  match segs with
  | [] => undef (* split_on never returns an empty list *)
  | n :: r =>
      s <- gets (fun s => s) ;;
      match nth_error (s_ns s) ns with
      | None => undef
      | Some x =>
          match find_cls s (n_classes x) n with
          | Some k => walk_inner zero k (pre ++ n ++ ["$"]) r
          | None =>
              if zero then ret None
              else
                k <- create_cls n (pre ++ n) ;;
                ns_add_class ns k ;;;
                walk_inner zero k (pre ++ n ++ ["$"]) r
          end
      end
  end.

(** text of [segs] with a separator after each of them *)
Definition joined (c : ascii) (segs : list str) : str := flat_map (fun x => x ++ [c]) segs.

(** [strrchr(name, '/')]: the text after the last slash *)
Definition after_slash (n : str) : str := last (split_on "/" n) [].

(** findclass.cpp 7-100 [InternalFindClass(ENV*, name, returnZero)]; null is [None].  [name] is a C
    string. *)
Definition find_class (zero : bool) (name : str) : M (option oid) :=
  if debug G && negb (match name with "[" :: _ => true | _ => false end) then
    let segs := split_on "/" name in
    k <- walk_ns zero 0 (removelast segs) ;;
    match k with
    | None => ret None
    | Some k => walk_cls zero k (joined "/" (removelast segs)) (split_on "$" (last segs []))
    end
  else
    s <- gets (fun s => s) ;;
    match get_class s name with
    | Some i => ret (Some i)
    | None =>
        if zero then ret None
        else i <- create_cls (after_slash name) name ;; ret (Some i)
    end.

(** findclass.cpp 102-104 [InternalFindClass(JNIEnv*, ...)]; also vm.cpp 28-33 [FindClass] *)
Definition FindClass_z (t : tid) (zero : bool) (name : str) : M (option oid) :=
  c <- find_class zero name ;; to_jni_opt t TClass c.
(** the [FindClass] entry of the interface table (vm.cpp 375) *)
Definition FindClass (t : tid) (name : str) : M (option oid) := FindClass_z t (retnull G) name.

(** findclass.cpp 106-116 [Declare] *)
Definition declare (t : tid) (sig : str) : M unit :=
  l <- of_res (Declare_names sig) ;;
  mapM_ (fun n => FindClass_z t false n ;;; ret tt) l.

(** env.h 90-91: Instantiate and baseclasses of a class bound to [T] *)
Definition bind_cls (i : oid) (T : ty) (inst : bool) : M unit :=
  upd_cls i (fun c => mkCls (c_name c) (c_prefix c) (c_inner c) (c_fields c) (c_methods c) (c_natives c)
                            (if inst then Some T else None) (c_instarr c) (Some T)).
(** env.h 87-93 [ENV::GetClass<T>(name)]: bind the C++ type [T] to a class.
    [inst]: T is default constructible. *)
Definition GetClassT (T : ty) (inst : bool) (name : str) : M oid :=
  o <- find_class false name ;;
  i <- nonnull o ;;
  set_type T (Some i) ;;;
  bind_cls i T inst ;;;
  ret i.

(** jnitypes.h 232-238: [if(!c->InstantiateArray) c->InstantiateArray = ...] *)
Definition set_instarr (i : oid) (n : nat) : M unit :=
  upd_cls i (fun c => mkCls (c_name c) (c_prefix c) (c_inner c) (c_fields c) (c_methods c) (c_natives c)
                            (c_inst c) (match c_instarr c with Some x => Some x | None => Some n end)
                            (c_bases c)).
(** jnitypes.h 229-252: computing the JNI signature of [Array<user class n>] for a hook
    signature sets InstantiateArray of the array class. *)
Definition declare_array (n : nat) : M unit :=
  s <- gets (fun s => s) ;;
  match type_class s (TUser n) with
  | None => undef (* hooks mention registered types only: otherwise ClassName<T> decides *)
  | Some c =>
      k <- get_cls c ;;
      o <- find_class false ("[" :: "L" :: c_prefix k ++ [";"]) ;;
      i <- nonnull o ;;
      set_instarr i n
  end.

(** The types whose classes [T::GetBaseClasses] looks up: [None] for object.cpp 9-11 (which returns
    a single null pointer), [Some l] for extends.h 16-26. *)
Definition ty_bases (T : ty) : option (list ty) :=
  match T with
  | TWeak | TGlobal => Some [TObject]
  | TUser n =>
      match ubases G n with
      | None => None
      | Some l => Some (map (fun b => match b with Some k => TUser k | None => TObject end) l)
      end
  | _ => None
  end.

(** [typecheck[typeid(B)]]: creates a null entry if there is none *)
Definition type_entry (B : ty) : M (option oid) :=
  s <- gets (fun s => s) ;;
  match get_type s B with
  | Some o => ret o
  | None => set_type B None ;;; ret None
  end.
(** [cl->baseclasses(env)]: object.cpp 9-11 or extends.h 16-26.  [typecheck[typeid(B)]] inserts a null
    entry for an unregistered base. *)
Definition base_classes (T : ty) : M (list (option oid)) :=
  match ty_bases T with
  | None => ret [None]
  | Some l =>
      r <- mapM type_entry l ;;
      if negb (ndebug G) && existsb (fun o => match o with None => true | _ => false end) r
      then err (S_ "Fatal BaseClass not registred!")
      else ret r
  end.

(** [if(cl->baseclasses) for(i : cl->baseclasses(env)) if(i)]: the non-null base classes *)
Definition bases_of (c : cls) : M (list oid) :=
  match c_bases c with
  | None => ret []
  | Some T => l <- base_classes T ;; ret (somes l)
  end.

(** ** Members *)

Definition mth_of (s : st) (i : oid) : option mth :=
  match lookup s i with
  | Some o => match o_pay o with PMethod m => Some m | _ => None end
  | None => None
  end.
Definition fld_of (s : st) (i : oid) : option fld :=
  match lookup s i with
  | Some o => match o_pay o with PField f => Some f | _ => None end
  | None => None
  end.

Definition bool_of {A} (o : option A) : bool := match o with Some _ => true | None => false end.

(** the predicate of method.cpp 29-33 *)
Definition mth_match (isStatic native : bool) (name sig : str) (m : mth) : bool :=
  Bool.eqb (m_static m) isStatic && Bool.eqb native (bool_of (m_native m)) &&
  str_eqb (m_name m) name && str_eqb (m_sig m) sig.
Definition find_mth (s : st) (p : mth -> bool) (l : list oid) : option oid :=
  find (fun i => match mth_of s i with Some m => p m | None => false end) l.
Definition find_fld (s : st) (p : fld -> bool) (l : list oid) : option oid :=
  find (fun i => match fld_of s i with Some f => p f | None => false end) l.

Definition add_method (cl i : oid) : M unit :=
  upd_cls cl (fun c => mkCls (c_name c) (c_prefix c) (c_inner c) (c_fields c) (c_methods c ++ [i])
                             (c_natives c) (c_inst c) (c_instarr c) (c_bases c)).
Definition add_field (cl i : oid) : M unit :=
  upd_cls cl (fun c => mkCls (c_name c) (c_prefix c) (c_inner c) (c_fields c ++ [i]) (c_methods c)
                             (c_natives c) (c_inst c) (c_instarr c) (c_bases c)).

(** first element for which the search succeeds (the loop over base classes) *)
Fixpoint first_some {A} (f : A -> M (option oid)) (l : list A) : M (option oid) :=
  match l with
  | [] => ret None
  | x :: r => o <- f x ;; match o with Some i => ret (Some i) | None => first_some f r end
  end.

(** method.cpp 18-22: [ssig.erase(ssig.find(')') + 1)] then append "L" nativeprefix ";".  When there is
    no ')' the position wraps to 0 and everything is erased. *)
Fixpoint upto_paren (s : str) : option str :=
  match s with
  | [] => None
  | x :: r => if Ascii.eqb x ")" then Some [x]
              else match upto_paren r with Some p => Some (x :: p) | None => None end
  end.
Definition init_sig (sig prefix : str) : str :=
  match upto_paren sig with Some p => p | None => [] end ++ S_ "L" ++ prefix ++ S_ ";".

(** method.cpp 7-84 [GetMethodID<isStatic, ReturnNull, AllowNative>]; null [name]/[sig] are the
    empty string (10-11).  [rn] = ReturnNull. *)
Fixpoint getMethodID (fuel : nat) (t : tid) (isStatic rn native : bool)
    (h : option oid) (name sig : str) : M (option oid) :=
  match fuel with
  | 0 => div
  | S fuel' =>
      cur <- jnicast TClass h ;;
      match cur with
      | None =>
          if rn then ret None
          else
            i <- alloc (new_obj None (PMethod (mkMth name sig isStatic None None))) ;;
            to_jni t TMethod i ;;;
            (if debug G then declare t sig else ret tt) ;;;
            ret (Some i)
      | Some cl =>
          c <- get_cls cl ;;
          if negb isStatic && str_eqb name (S_ "<init>") then
            getMethodID fuel' t true rn native h name (init_sig sig (c_prefix c))
          else
            s <- gets (fun s => s) ;;
            match find_mth s (mth_match isStatic native name sig) (c_methods c) with
            | Some i => ret (Some i)
            | None =>
                bs <- bases_of c ;;
                o <- first_some (fun b => getMethodID fuel' t isStatic true native (Some b) name sig) bs ;;
                match o with
                | Some i => ret (Some i)
                | None =>
                    if rn then ret None
                    else
                      i <- alloc (new_obj None (PMethod (mkMth name sig isStatic None None))) ;;
                      add_method cl i ;;;
                      (if debug G then declare t sig else ret tt) ;;;
                      ret (Some i)
                end
            end
      end
  end.

(** Depth of the recursion over base classes: a chain without repetition visits every class at most
    once; one more step for the rewriting of <init>. *)
Definition depth (s : st) : nat := length (s_heap s) + 2.

(** the interface entries GetMethodID / GetStaticMethodID (vm.cpp 402, 408) *)
Definition GetMethodID (t : tid) (isStatic : bool) (h : option oid) (name sig : str) : M (option oid) :=
  s <- gets (fun s => s) ;; getMethodID (depth s) t isStatic (retnull G) false h name sig.

(** fake-jni/method.cpp 6-13 [Class::getMethod]: (member, static, native) *)
Definition getMethod (t : tid) (cl : oid) (sig name : str) : M (option oid * option oid * option oid) :=
  s <- gets (fun s => s) ;;
  m <- getMethodID (depth s) t false true false (Some cl) name sig ;;
  p <- getMethodID (depth s) t true true false (Some cl) name sig ;;
  match m, p with
  | None, None =>
      n <- getMethodID (depth s) t false true true (Some cl) name sig ;; ret (None, None, n)
  | _, _ => ret (m, p, None)
  end.

Definition fld_match (isStatic : bool) (name ty : str) (f : fld) : bool :=
  Bool.eqb (f_static f) isStatic && str_eqb (f_name f) name && str_eqb (f_type f) ty.

(** field.cpp 11-63 [GetFieldID<isStatic, ReturnNull>] *)
Fixpoint getFieldID (fuel : nat) (t : tid) (isStatic rn : bool)
    (h : option oid) (name ty : str) : M (option oid) :=
  match fuel with
  | 0 => div
  | S fuel' =>
      cur <- jnicast TClass h ;;
      cl <- nonnull cur ;;
      c <- get_cls cl ;;
      s <- gets (fun s => s) ;;
      match find_fld s (fld_match isStatic name ty) (c_fields c) with
      | Some i => ret (Some i)
      | None =>
          bs <- bases_of c ;;
          o <- first_some (fun b => getFieldID fuel' t isStatic true (Some b) name ty) bs ;;
          match o with
          | Some i => ret (Some i)
          | None =>
              if rn then ret None
              else
                i <- alloc (new_obj None (PField (mkFld name ty isStatic None None))) ;;
                add_field cl i ;;;
                (if debug G then declare t ty else ret tt) ;;;
                ret (Some i)
          end
      end
  end.
Definition GetFieldID (t : tid) (isStatic : bool) (h : option oid) (name ty : str) : M (option oid) :=
  s <- gets (fun s => s) ;; getFieldID (depth s) t isStatic (retnull G) h name ty.

(** [method->nativehandle = ...] and [field.get()->*handle = ...] (hookManager.h 64, 85, 117, 138) *)
Definition set_mhandle (i : oid) (hd : handle) : M unit :=
  upd_mth i (fun m => mkMth (m_name m) (m_sig m) (m_static m) (m_native m) (Some hd)).
Definition set_fhandle (i : oid) (getter : bool) (hd : handle) : M unit :=
  upd_fld i (fun f => mkFld (f_name f) (f_type f) (f_static f)
                            (if getter then Some hd else f_get f)
                            (if getter then f_set f else Some hd)).

(** hookManager.h 46-86 [FunctionBase::install] on class [cl]: reuse the method with the same static
    flag, name and signature or add one, then set its implementation. *)
Definition hook_method (cl : oid) (isStatic : bool) (name sig : str) (hd : handle) : M oid :=
  c <- get_cls cl ;;
  s <- gets (fun s => s) ;;
  i <- (match find_mth s (fun m => Bool.eqb (m_static m) isStatic && str_eqb (m_name m) name
                                   && str_eqb (m_sig m) sig) (c_methods c) with
        | Some i => ret i
        | None =>
            i <- alloc (new_obj None (PMethod (mkMth name sig isStatic None None))) ;;
            add_method cl i ;;; ret i
        end) ;;
  set_mhandle i hd ;;;
  ret i.

(** hookManager.h 99-140 [PropertyBase::install]; [getter] selects which handle is set. *)
Definition hook_field (cl : oid) (isStatic getter : bool) (name ty : str) (hd : handle) : M oid :=
  c <- get_cls cl ;;
  s <- gets (fun s => s) ;;
  i <- (match find_fld s (fld_match isStatic name ty) (c_fields c) with
        | Some i => ret i
        | None =>
            i <- alloc (new_obj None (PField (mkFld name ty isStatic None None))) ;;
            add_field cl i ;;; ret i
        end) ;;
  set_fhandle i getter hd ;;;
  ret i.

(** vm.cpp 256-278 [RegisterNatives] with the array [l] of (name, signature, fnPtr) and its length
    [n]; the loop [while(i--)] runs past the array (reads out of bounds) when [n] is negative or larger
    than the array.  [fn] is null if None. *)
Definition set_native (cl : oid) (name : str) (fn : option nat) : M unit :=
  upd_cls cl (fun c => mkCls (c_name c) (c_prefix c) (c_inner c) (c_fields c) (c_methods c)
                             (match fn with Some f => aset str_eqb (c_natives c) name f
                                          | None => adel str_eqb (c_natives c) name end)
                             (c_inst c) (c_instarr c) (c_bases c)).
Definition RegisterNatives (h : option oid) (l : list (str * str * option nat)) (n : Z) : M Z :=
  cl <- jnicast TClass h ;;
  match cl with
  | None => ret 0%Z
  | Some cl =>
      if (n <? 0)%Z || (Z.of_nat (length l) <? n)%Z then undef
      else
        mapM_ (fun x => match x with (nm, sg, fn) =>
                 set_native cl nm fn ;;;
                 i <- alloc (new_obj None (PMethod (mkMth nm sg false fn None))) ;;
                 add_method cl i end) (firstn (Z.to_nat n) l) ;;;
        ret 0%Z
  end.

(** vm.cpp 279-294 [UnregisterNatives] *)
Definition is_native (s : st) (i : oid) : bool :=
  match mth_of s i with Some m => bool_of (m_native m) | None => false end.
(** vm.cpp 286-291: [for(i = 0; i < methods.size(); ++i) if(methods[i]->native) { erase(i); --i; }].
    [fuel] bounds the number of iterations; every iteration erases an element or advances. *)
Fixpoint unreg_loop (s : st) (fuel i : nat) (l : list oid) : list oid :=
  match fuel with
  | 0 => l
  | S fuel' =>
      match nth_error l i with
      | None => l
      | Some m => if is_native s m
                  then unreg_loop s fuel' i (firstn i l ++ skipn (S i) l)
                  else unreg_loop s fuel' (S i) l
      end
  end.
(** 285-291: the erase loop with [--i] removes exactly the methods with a native function *)
Definition drop_natives (cl : oid) : M unit :=
  s <- gets (fun s => s) ;;
  upd_cls cl (fun c => mkCls (c_name c) (c_prefix c) (c_inner c) (c_fields c)
                             (unreg_loop s (length (c_methods c)) 0 (c_methods c)) []
                             (c_inst c) (c_instarr c) (c_bases c)).
Definition UnregisterNatives (h : option oid) : M Z :=
  cl <- jnicast TClass h ;;
  match cl with
  | None => ret 0%Z
  | Some cl =>
      drop_natives cl ;;;
      ret 0%Z
  end.

(** ** Reference functions *)

(** vm.cpp 122-127 *)
Definition frame_push (t : tid) : M unit :=
  upd_env t (fun e => match e_free e with
                      | [] => env_frames e ([] :: e_frames e)
                      | f :: r => env_free (env_frames e (f :: e_frames e)) r
                      end).
(** vm.cpp 139-145: clear the innermost frame, move it to the free list and make sure that there is a
    frame.  Objects that only the frame referenced are destroyed here. *)
Definition frame_pop (t : tid) : M unit :=
  e <- the_env t ;;
  match e_frames e with
  | [] => undef
  | _ :: r =>
      put_env t (env_free (env_frames e (match r with [] => [[]] | _ => r end)) ([] :: e_free e))
  end ;;;
  gc.
(** vm.cpp 119-133 [PushLocalFrame]: the frame comes from the free list if possible; a negative
    capacity makes [reserve] throw std::length_error after the frame was pushed. *)
Definition PushLocalFrame (t : tid) (cap : Z) : M Z :=
  frame_push t ;;;
  if (cap <? 0)%Z then err (S_ "vector::reserve") else ret 0%Z.

(** vm.cpp 134-152 [PopLocalFrame]: [res] lives on the stack while the frame is cleared. *)
Definition PopLocalFrame (t : tid) (h : option oid) : M (option oid) :=
  res <- jnicast TObject h ;;
  set_tmp (opt_list res) ;;;
  frame_pop t ;;;
  match res with
  | Some i => to_jni t TObject i
  | None => ret h
  end.

(** vm.cpp 153-172 [NewGlobalRef] *)
Definition NewGlobalRef (h : option oid) : M (option oid) :=
  o <- jnicast TObject h ;;
  match o with
  | None => ret None
  | Some i =>
      c <- find_class false (S_ "internal/lang/Global") ;;
      g <- alloc (new_obj c (PGlobal i)) ;;
      add_global g ;;;
      ret (Some g)
  end.

(** vm.cpp 173-190 [DeleteGlobalRef] *)
Definition DeleteGlobalRef (h : option oid) : M unit :=
  o <- jnicast_global h ;;
  match o with None => ret tt | Some i => del_global i ;;; ret tt end.

(** vm.cpp 313-323 [NewWeakGlobalRef], 324-326 [DeleteWeakGlobalRef] *)
Definition NewWeakGlobalRef (h : option oid) : M (option oid) :=
  o <- jnicast TObject h ;;
  match o with
  | None => ret None
  | Some i =>
      c <- find_class false (S_ "java/lang/ref/WeakReference") ;;
      g <- alloc (new_obj c (PWeak i)) ;;
      add_global g ;;;
      ret (Some g)
  end.
Definition DeleteWeakGlobalRef (h : option oid) : M unit :=
  o <- jnicast_weak h ;;
  match o with None => ret tt | Some i => del_global i ;;; ret tt end.

(** vm.cpp 191-208 [DeleteLocalRef]: erase the first occurrence in the innermost frame that has one *)
Fixpoint del_frames (i : oid) (fs : list (list oid)) : list (list oid) :=
  match fs with
  | [] => []
  | f :: r => if memb i f then remove_first i f :: r else f :: del_frames i r
  end.
Definition frame_del (t : tid) (i : oid) : M unit :=
  upd_env t (fun e => env_frames e (del_frames i (e_frames e))).
Definition DeleteLocalRef (t : tid) (h : option oid) : M unit :=
  o <- jnicast TObject h ;;
  match o with
  | None => ret tt
  | Some i => frame_del t i
  end.

(** vm.cpp 209-216 [IsSameObject] *)
Definition opt_eqb (a b : option oid) : bool :=
  match a, b with
  | None, None => true
  | Some x, Some y => Nat.eqb x y
  | _, _ => false
  end.
Definition IsSameObject (l r : option oid) : M bool :=
  if opt_eqb l r then ret true
  else
    a <- jnicast TObject l ;;
    b <- jnicast TObject r ;;
    ret (opt_eqb a b).

(** vm.cpp 217-228 [NewLocalRef] *)
Definition NewLocalRef (t : tid) (h : option oid) : M (option oid) :=
  o <- jnicast TObject h ;;
  match o with
  | None => ret None
  | Some i => push_local t i ;;; ret (Some i)
  end.

(** vm.cpp 229-235 [EnsureLocalCapacity] *)
Definition EnsureLocalCapacity (t : tid) (cap : Z) : M Z :=
  e <- the_env t ;;
  match e_frames e with
  | [] => undef
  | _ => if (cap <? 0)%Z then err (S_ "vector::reserve") else ret 0%Z
  end.

(** vm.cpp 333-344 [GetObjectRefType] *)
Inductive reftype := RefInvalid | RefLocal | RefGlobal | RefWeak.
Definition GetObjectRefType (h : option oid) : M reftype :=
  match h with
  | None => ret RefInvalid
  | Some i =>
      o <- deref i ;;
      match o_pay o with
      | PWeak _ => ret RefWeak
      | PGlobal _ => ret RefGlobal
      | _ => ret RefLocal
      end
  end.

(** vm.cpp 241-243 [GetObjectClass] and object.cpp 5-7: a null class pointer is converted to null.
    Objects whose C++ class overrides getClassInternal with a descriptor (fake-jni.h 254-270) are in FakeModel. *)
Definition clazz_lock (i : oid) : M (option oid) :=
  o <- deref i ;;
  s <- gets (fun s => s) ;;
  ret (match o_clazz o with Some c => if live s c then Some c else None | None => None end).
Definition GetObjectClass (t : tid) (h : option oid) : M (option oid) :=
  match h with
  | None => FindClass t (S_ "Invalid")
  | Some _ =>
      o <- jnicast TObject h ;;
      i <- nonnull o ;;
      c <- clazz_lock i ;;
      to_jni_opt t TClass c
  end.

(** vm.cpp 55-58 [GetSuperclass]: the first entry of the base class list, without a local reference *)
Definition GetSuperclass (h : option oid) : M (option oid) :=
  o <- jnicast TClass h ;;
  i <- nonnull o ;;
  c <- get_cls i ;;
  match c_bases c with
  | None => ret None
  | Some T =>
      l <- base_classes T ;;
      match l with x :: _ => ret x | [] => undef end
  end.

Fixpoint anyM {A} (f : A -> M bool) (l : list A) : M bool :=
  match l with
  | [] => ret false
  | x :: r => b <- f x ;; if b then ret true else anyM f r
  end.

(** vm.cpp 59-71 [HasBaseClass] *)
Fixpoint has_base (fuel : nat) (cl c2 : oid) : M bool :=
  match fuel with
  | 0 => div
  | S fuel' =>
      if Nat.eqb cl c2 then ret true
      else
        c <- get_cls cl ;;
        bs <- bases_of c ;;
        anyM (fun b => has_base fuel' b c2) bs
  end.
(** vm.cpp 72-74 [IsAssignableFrom]; a null first class is dereferenced unless both are null *)
Definition IsAssignableFrom (h1 h2 : option oid) : M bool :=
  a <- jnicast TClass h1 ;;
  b <- jnicast TClass h2 ;;
  match a, b with
  | None, None => ret true
  | None, Some _ => undef
  | Some i, _ =>
      s <- gets (fun s => s) ;;
      has_base (depth s) i (match b with Some j => j | None => length (s_heap s) (* no class *) end)
  end.
(** vm.cpp 244-246 [IsInstanceOf] *)
Definition IsInstanceOf (t : tid) (h c : option oid) : M bool :=
  match h with
  | None => ret false
  | Some _ => k <- GetObjectClass t h ;; IsAssignableFrom k c
  end.

(** vm.cpp 34-40 / 41-47 [FromReflectedMethod] / [FromReflectedField].  The result is the handle itself,
    reinterpreted. *)
Definition FromReflected (t : tid) (cname : str) (h : option oid) : M (option oid) :=
  match h with
  | None => ret None
  | Some _ =>
      a <- GetObjectClass t h ;;
      b <- FindClass_z t false cname ;;
      r <- IsSameObject a b ;;
      ret (if r then h else None)
  end.
Definition FromReflectedMethod t h := FromReflected t (S_ "java/lang/reflect/Method") h.
Definition FromReflectedField t h := FromReflected t (S_ "java/lang/reflect/Field") h.

(** vm.cpp 48-54 [ToReflectedMethod], 75-81 [ToReflectedField] *)
Definition ToReflectedMethod (t : tid) (c mid : option oid) (isStatic : bool) : M (option oid) :=
  match c, mid with
  | Some _, Some i =>
      m <- get_mth i ;;
      if Bool.eqb (m_static m) isStatic then NewLocalRef t mid else ret None
  | _, _ => ret None
  end.
Definition ToReflectedField (t : tid) (c fid : option oid) (isStatic : bool) : M (option oid) :=
  match c, fid with
  | Some _, Some i =>
      f <- get_fld i ;;
      if Bool.eqb (f_static f) isStatic then NewLocalRef t fid else ret None
  | _, _ => ret None
  end.

(** ** Exceptions *)

(** [env->current_exception = ...] *)
Definition set_exc (t : tid) (o : option oid) : M unit := upd_env t (fun e => env_exc e o).
(** vm.cpp 82-86 [Throw] *)
Definition Throw (t : tid) (h : option oid) : M Z :=
  o <- jnicast TThrowable h ;;
  set_exc t o ;;;
  ret 0%Z.
(** make_shared<Throwable> with the given exception, stored as the pending exception
    (vm.cpp 91-93, method.cpp 208-210) *)
Definition set_pending (t : tid) (x : exn) : M unit :=
  i <- alloc (new_obj None (PThrow x)) ;;
  set_exc t (Some i).
(** vm.cpp 87-96 [ThrowNew]; the class is ignored.  A null message is undefined behaviour of
    std::runtime_error. *)
Definition ThrowNew (t : tid) (c : option oid) (msg : option str) : M Z :=
  match msg with
  | None => undef
  | Some m => set_pending t (Err m) ;;; ret 0%Z
  end.
(** vm.cpp 97-99 [ExceptionOccurred] *)
Definition ExceptionOccurred (t : tid) : M (option oid) :=
  e <- the_env t ;; to_jni_opt t TThrowable (e_exc e).
(** vm.cpp 100-111 [ExceptionDescribe]: only logs.  rethrow_exception of a null exception_ptr cannot
    happen for throwables created by the library. *)
Definition ExceptionDescribe (t : tid) : M unit := the_env t ;;; ret tt.
(** vm.cpp 112-114 [ExceptionClear], 328-330 [ExceptionCheck] *)
Definition ExceptionClear (t : tid) : M unit := set_exc t None.
Definition ExceptionCheck (t : tid) : M bool := e <- the_env t ;; ret (bool_of (e_exc e)).

(** ** Calls *)

(** Result of a call: zero/null for methods without implementation (method.cpp 86-166 defaultVal without
    JNIVM_RETURN_NON_ZERO), otherwise the hook [hook] has been entered with receiver and
    arguments, and its completion is a separate step ([HookReturn] / [HookThrow]). *)
Inductive arg := ArgZ (z : Z) | ArgL (h : option oid).
Inductive callres :=
| Default
| Entered (hook : nat) (recv : option oid) (args : list arg).

(** Enter handle [hd] through the virtual function [want]; other kinds and result types hit the base
    implementation, which throws "Mismatched MethodHandle!" (methodhandlebase.h 10-36).
    Simplified: the handle (and the Method) is used by raw pointer while the hook runs; replacing or
    unregistering it meanwhile is tracked in ReplModel only. *)
Definition mismatched : str := S_ "Mismatched MethodHandle!".
Definition nonvirt_msg : str := S_ "Calling member function pointer non virtual is not supported in c++".
Definition hkind_eqb (a b : hkind) : bool :=
  match a, b with
  | KInst, KInst | KStatic, KStatic | KInstGet, KInstGet | KStaticGet, KStaticGet
  | KInstSet, KInstSet | KStaticSet, KStaticSet => true
  | _, _ => false
  end.
(** The C++ stack frame of a call holds a shared_ptr<Class> (method.cpp 196, 256, 289; field.cpp 112, 141). *)
Definition call_push (t : tid) (k : call) : M unit :=
  check (fun s => forallb (is_cls s) (k_held k)) ;;; upd_env t (fun e => env_calls e (k :: e_calls e)).
Definition call_pop (t : tid) : M call :=
  e <- the_env t ;;
  match e_calls e with
  | [] => undef
  | k :: r => put_env t (env_calls e r) ;;; ret k
  end.
Definition enter (t : tid) (catch : bool) (hd : handle) (want : hkind) (nonvirt : bool) (T : rty)
    (recv : option oid) (held : list oid) (args : list arg) : M callres :=
  if hkind_eqb (h_kind hd) want && rty_eqb (h_ret hd) T then
    if nonvirt && h_memfn hd then
      if catch then set_pending t (Err nonvirt_msg) ;;; ret Default else err nonvirt_msg
    else
      call_push t (mkCall (match want with KInstSet | KStaticSet => RVoid | _ => T end) catch (h_id hd) held) ;;;
      ret (Entered (h_id hd) recv args)
  else
    if catch then set_pending t (Err mismatched) ;;; ret Default else err mismatched.

(** method.cpp 168-180 [findNonVirtualOverload]: [None] is nullptr *)
Definition overload_match (m : mth) (x : mth) : bool :=
  negb (m_static x) && str_eqb (m_name m) (m_name x) && str_eqb (m_sig m) (m_sig x)
  && bool_of (m_handle x).
Definition findNonVirtualOverload (cl : option oid) (mid : oid) : M (option oid) :=
  match cl with
  | None => ret (Some mid)
  | Some c =>
      k <- get_cls c ;;
      m <- get_mth mid ;;
      s <- gets (fun s => s) ;;
      ret (find_mth s (overload_match m) (c_methods k))
  end.
(** method.cpp 182-189 [findVirtualOverload]: [mid->GetBaseClasses(env)[0]] is
    Object::GetBaseClasses, i.e. null, so the recursion returns [mid] at once. *)
Definition findVirtualOverload (cl : option oid) (mid : oid) : M oid :=
  o <- findNonVirtualOverload cl mid ;;
  match o with
  | Some i => ret i
  | None => o <- findNonVirtualOverload None mid ;; nonnull o
  end.

(** method.cpp 191-223: Call<Type>MethodA(obj, id, args) *)
Definition CallMethodA (t : tid) (T : rty) (obj : option oid) (id : option oid) (args : list arg) : M callres :=
  match id with
  | None => ret Default
  | Some i =>
      m <- get_mth i ;;
      match m_handle m with
      | None => ret Default
      | Some _ =>
          k <- GetObjectClass t obj ;;
          cl <- jnicast TClass k ;;
          j <- findVirtualOverload cl i ;;
          x <- get_mth j ;;
          match m_handle x with
          | None => undef
          | Some hd => enter t true hd KInst false T obj (opt_list cl) args
          end
      end
  end.

(** method.cpp 251-285: CallNonvirtual<Type>MethodA(obj, cl, id, args); a null result of
    findNonVirtualOverload is dereferenced. *)
Definition CallNonvirtualMethodA (t : tid) (T : rty) (obj cls id : option oid) (args : list arg) : M callres :=
  match id with
  | None => ret Default
  | Some i =>
      m <- get_mth i ;;
      match m_handle m with
      | None => ret Default
      | Some _ =>
          cl <- jnicast TClass cls ;;
          o <- findNonVirtualOverload cl i ;;
          j <- nonnull o ;;
          x <- get_mth j ;;
          match m_handle x with
          | None => undef
          | Some hd => enter t true hd KInst true T obj (opt_list cl) args
          end
      end
  end.

(** method.cpp 287-317: CallStatic<Type>MethodA and NewObjectA (vm.cpp 397-399) *)
Definition CallStaticMethodA (t : tid) (T : rty) (cls id : option oid) (args : list arg) : M callres :=
  cl <- jnicast TClass cls ;;
  match id with
  | None => ret Default
  | Some i =>
      m <- get_mth i ;;
      match m_handle m with
      | None => ret Default
      | Some hd => enter t true hd KStatic false T cl (opt_list cl) args
      end
  end.

(** What a hook returns: a primitive value, nothing, or a shared_ptr of static type [Y]. *)
Inductive hval := HUnit | HPrim (z : Z) | HObj (Y : ty) (o : option oid).
Inductive rval := VUnit | VPrim (z : Z) | VRef (h : option oid).

Definition default_val (T : rty) : rval :=
  match T with RObj => VRef None | RPrim _ => VPrim 0 | RVoid => VUnit end.

(** The innermost running hook of the thread returns [v]: ToJNIReturnType (wrap.h 300-330). *)
Definition HookReturn (t : tid) (v : hval) : M rval :=
  k <- call_pop t ;;
  match k_ret k, v with
  | RObj, HObj Y o =>
      (match o with Some i => x <- deref i ;; guard (isa (o_pay x) Y) | None => ret tt end) ;;;
      h <- to_jni_opt t Y o ;; ret (VRef h)
  | RPrim _, HPrim z => ret (VPrim z)
  | RVoid, HUnit => ret VUnit
  | _, _ => undef
  end.
(** The innermost running hook throws: method.cpp 207-215 catches everything; getters and setters
    (field.cpp 123, 152) do not catch. *)
Definition HookThrow (t : tid) (n : exn) : M rval :=
  k <- call_pop t ;;
  if k_catch k then set_pending t n ;;; ret (default_val (k_ret k))
  else throw n.

(** field.cpp 107-131 [GetField<T, O>]: [isStatic] is [O = jclass]; 78-83 GetParam *)
Definition GetField (t : tid) (isStatic : bool) (T : rty) (obj id : option oid) : M callres :=
  match id with
  | None => ret Default
  | Some i =>
      f <- get_fld i ;;
      match f_get f with
      | None => ret Default
      | Some hd =>
          if negb (Bool.eqb (f_static f) isStatic) then abrt
          else if isStatic then
            cl <- jnicast TClass obj ;;
            enter t false hd KStaticGet false T cl (opt_list cl) []
          else enter t false hd KInstGet false T obj [] []
      end
  end.
(** field.cpp 133-159 [SetField<T, O>] *)
Definition SetField (t : tid) (isStatic : bool) (T : rty) (obj id : option oid) (v : arg) : M callres :=
  match obj, id with
  | Some _, Some i =>
      f <- get_fld i ;;
      match f_set f with
      | None => ret Default
      | Some hd =>
          if negb (Bool.eqb (f_static f) isStatic) then abrt
          else if isStatic then
            cl <- jnicast TClass obj ;;
            enter t false hd KStaticSet false T cl (opt_list cl) [v]
          else enter t false hd KInstSet false T obj [] [v]
      end
  | _, _ => ret Default
  end.

(** ** Arrays *)

Definition pay_len (p : pay) : nat :=
  match p with PPrim _ l => length l | PArr _ l => length l | _ => 0 end.
(** array.cpp 6-8 [GetArrayLength]; an expired weak reference is a null dereference *)
Definition GetArrayLength (h : option oid) : M Z :=
  match h with
  | None => ret 0%Z
  | Some _ =>
      o <- jnicast TVArr h ;;
      i <- nonnull o ;;
      x <- deref i ;;
      ret (Z.of_nat (pay_len (o_pay x)))
  end.

(** The class against which [Array<Object>::Set] checks elements of an [Array<user class n>]: the
    override for shared_ptr<Object> is inherited from the ancestor that derives from Object
    directly (array.h 197-246), i.e. the last class before Object on the chain of bases.  A class that
    names Object among its own bases has an override of its own (array.h 228-242), which is the final one.
    Several other bases: the first is followed; unless all of them end in the same class there is no
    final overrider and the array type does not compile. *)
Fixpoint top_class (fuel n : nat) : nat :=
  match fuel with
  | 0 => n
  | S fuel' =>
      match ubases G n with
      | Some (Some k :: r) =>
          if existsb (fun b => match b with None => true | Some _ => false end) r then n
          else top_class fuel' k
      | _ => n
      end
  end.
(** array.h 173-175, 199-201, 228-234, 248-254: the virtual [Set(jint, shared_ptr<Object>)] *)
Definition elem_ok (s : st) (t : option nat) (v : option oid) : bool :=
  match t, v with
  | Some n, Some i =>
      match lookup s i with Some o => isa (o_pay o) (TUser (top_class n n)) | None => false end
  | _, _ => true
  end.
Definition array_set (a : oid) (k : Z) (v : option oid) : M unit :=
  o <- deref a ;;
  s <- gets (fun s => s) ;;
  match o_pay o with
  | PArr t l =>
      if negb (elem_ok s t v) then err (S_ "Class Type Exception")
      else if (k <? 0)%Z || (Z.of_nat (length l) <=? k)%Z then undef
      else upd_arr a (fun l => list_set l (Z.to_nat k) v)
  | _ => undef
  end.

(** array.cpp 9-22 [NewObjectArray].  A negative length makes the array new expression throw.  [init] is dereferenced
    once per element; a dangling pointer stays one even if the new array happens to reuse the memory. *)
Definition NewObjectArray (t : tid) (n : Z) (c init : option oid) : M (option oid) :=
  o <- jnicast TClass c ;;
  i <- nonnull o ;;
  k <- get_cls i ;;
  (if (0 <? n)%Z then live_all (opt_list init) else ret tt) ;;;
  let p := c_prefix k in
  cl <- find_class false (match p with "[" :: _ => "[" :: p | _ => "[" :: "L" :: p ++ [";"] end) ;;
  ci <- nonnull cl ;;
  ck <- get_cls ci ;;
  if (n <? 0)%Z then err (S_ "std::bad_array_new_length")
  else
    a <- alloc (new_obj (Some ci) (PArr (c_instarr ck) (repeat None (Z.to_nat n)))) ;;
    match init with
    | None => ret tt
    | Some v => mapM_ (fun j => live_all [v] ;;; array_set a (Z.of_nat j) init) (seq 0 (Z.to_nat n))
    end ;;;
    to_jni t (TArr None) a.

(** array.cpp 23-25 [GetObjectArrayElement] *)
Definition GetObjectArrayElement (t : tid) (h : option oid) (k : Z) : M (option oid) :=
  o <- jnicast (TArr None) h ;;
  i <- nonnull o ;;
  x <- deref i ;;
  match o_pay x with
  | PArr _ l =>
      if (k <? 0)%Z then undef
      else match nth_error l (Z.to_nat k) with
           | Some v => to_jni_opt t TObject v
           | None => undef
           end
  | _ => undef
  end.
(** array.cpp 26-28 [SetObjectArrayElement] *)
Definition SetObjectArrayElement (h : option oid) (k : Z) (v : option oid) : M unit :=
  x <- jnicast TObject v ;;
  o <- jnicast (TArr None) h ;;
  i <- nonnull o ;;
  array_set i k x.

Definition pty_char (p : pty) : ascii :=
  match p with PtZ => "Z" | PtB => "B" | PtC => "C" | PtS => "S" | PtI => "I" | PtJ => "J" | PtF => "F" | PtD => "D" end.
(** array.cpp 30-34 [NewArray<T>]: zero filled; a negative length throws *)
Definition NewArray (t : tid) (p : pty) (n : Z) : M (option oid) :=
  if (n <? 0)%Z then err (S_ "std::bad_array_new_length")
  else
    c <- find_class false ["["; pty_char p] ;;
    a <- alloc (new_obj c (PPrim p (repeat 0%Z (Z.to_nat n)))) ;;
    to_jni t (TPArr p) a.

Definition prim_elems (p : pay) : list Z := match p with PPrim _ l => l | _ => [] end.
(** array.cpp 49-53 [GetArrayRegion<T>]: memcpy of [len] elements from [start]; [sizeof(T)*len] of a negative
    [len] is a huge size_t. *)
Definition GetArrayRegion (p : pty) (h : option oid) (start len : Z) : M (list Z) :=
  o <- jnicast (TPArr p) h ;;
  i <- nonnull o ;;
  x <- deref i ;;
  let l := prim_elems (o_pay x) in
  if (start <? 0)%Z || (len <? 0)%Z || (Z.of_nat (length l) <? start + len)%Z then undef
  else ret (firstn (Z.to_nat len) (skipn (Z.to_nat start) l)).
(** array.cpp 55-59 [SetArrayRegion<T>] with [buf] holding at least [len] elements *)
Definition splice (l : list Z) (k : nat) (b : list Z) : list Z :=
  firstn k l ++ firstn (length l - k) b ++ skipn (k + length b) l.
Definition SetArrayRegion (p : pty) (h : option oid) (start len : Z) (buf : list Z) : M unit :=
  o <- jnicast (TPArr p) h ;;
  i <- nonnull o ;;
  x <- deref i ;;
  let l := prim_elems (o_pay x) in
  if (start <? 0)%Z || (len <? 0)%Z || (Z.of_nat (length l) <? start + len)%Z
     || (Z.of_nat (length buf) <? len)%Z then undef
  else upd_prim i (fun l => splice l (Z.to_nat start) (firstn (Z.to_nat len) buf)).
(** array.cpp 36-42 [GetArrayElements<T>]: a pointer into the array itself (represented by the array),
    so writing element [k] through it is [ElementsWrite]; 44-47 Release does nothing.
    [None] stands for T = void (GetPrimitiveArrayCritical). *)
Definition GetArrayElements (p : option pty) (h : option oid) : M (option oid) :=
  match h with
  | None => ret None
  | Some _ =>
      o <- jnicast (match p with Some q => TPArr q | None => TVArr end) h ;;
      i <- nonnull o ;; ret (Some i)
  end.
Definition ElementsRead (a : oid) (k : nat) : M Z :=
  x <- deref a ;;
  match nth_error (prim_elems (o_pay x)) k with Some z => ret z | None => undef end.
Definition ElementsWrite (a : oid) (k : nat) (z : Z) : M unit :=
  x <- deref a ;;
  if (k <? length (prim_elems (o_pay x)))%nat then upd_prim a (fun l => list_set l k z) else undef.

(** ** Strings and buffers (contents: see UtfModel) *)

(** string.cpp 14, 54: the new String object with contents [bytes] *)
Definition NewStringObj (t : tid) (bytes : str) : M (option oid) :=
  i <- alloc (new_obj None (PString bytes)) ;; to_jni t TString i.
(** contents of the String object behind a handle, [None] for the null handle; an expired weak
    reference is a null dereference *)
Definition string_bytes (h : option oid) : M (option str) :=
  match h with
  | None => ret None
  | Some _ =>
      o <- jnicast TString h ;;
      i <- nonnull o ;;
      x <- deref i ;; match o_pay x with PString b => ret (Some b) | _ => undef end
  end.
Definition string_nonnull (h : option oid) : M str :=
  o <- string_bytes h ;; match o with Some b => ret b | None => undef end.
(** string.cpp 8-108, see UtfModel *)
Definition JNewString (t : tid) (cs : list Z) (size : Z) : M (option oid) :=
  b <- of_res (UtfModel.NewString (csigned G) cs size) ;; NewStringObj t b.
Definition JNewStringUTF (t : tid) (os : option str) : M (option oid) :=
  NewStringObj t (UtfModel.NewStringUTF os).
Definition JGetStringLength (h : option oid) : M Z :=
  o <- string_bytes h ;; of_res (UtfModel.GetStringLength (csigned G) o).
Definition JGetStringUTFLength (h : option oid) : M Z :=
  o <- string_bytes h ;; of_res (UtfModel.GetStringUTFLength o).
Definition JGetStringChars (h : option oid) : M (list Z) :=
  o <- string_bytes h ;; of_res (UtfModel.GetStringChars (csigned G) o).
Definition JGetStringUTFChars (h : option oid) : M str :=
  o <- string_bytes h ;; ret (UtfModel.GetStringUTFChars o).
Definition JGetStringRegion (h : option oid) (start len : Z) (cap : nat) : M (list Z) :=
  b <- string_nonnull h ;; of_res (UtfModel.GetStringRegion (csigned G) b start len cap).
Definition JGetStringUTFRegion (h : option oid) (start len : Z) (cap : nat) : M str :=
  b <- string_nonnull h ;; of_res (UtfModel.GetStringUTFRegion (csigned G) b start len cap).

(** bytebuffer.cpp 8-16 *)
Definition NewDirectByteBuffer (t : tid) (addr cap : Z) : M (option oid) :=
  i <- alloc (new_obj None (PBuffer addr cap)) ;; to_jni t TBuffer i.
Definition buffer_of (h : option oid) : M (Z * Z) :=
  o <- jnicast TBuffer h ;;
  i <- nonnull o ;;
  x <- deref i ;; match o_pay x with PBuffer a c => ret (a, c) | _ => undef end.
Definition GetDirectBufferAddress (h : option oid) : M Z := b <- buffer_of h ;; ret (fst b).
Definition GetDirectBufferCapacity (h : option oid) : M Z := b <- buffer_of h ;; ret (snd b).

(** ** Monitors *)

(** vm.cpp 296-299 [MonitorEnter]: std::recursive_mutex::lock *)
Definition MonitorEnter (t : tid) (h : option oid) : M Z :=
  o <- jnicast TObject h ;;
  i <- nonnull o ;;
  x <- deref i ;;
  match o_mon x with
  | None => set_mon i (Some (t, 1)) ;;; ret 0%Z
  | Some (u, n) => if Nat.eqb u t then set_mon i (Some (t, S n)) ;;; ret 0%Z else block
  end.
(** vm.cpp 300-303 [MonitorExit]: unlocking a mutex that the thread does not own is undefined *)
Definition MonitorExit (t : tid) (h : option oid) : M Z :=
  o <- jnicast TObject h ;;
  i <- nonnull o ;;
  x <- deref i ;;
  match o_mon x with
  | Some (u, S n) =>
      if Nat.eqb u t then
        set_mon i (match n with 0 => None | _ => Some (t, n) end) ;;; ret 0%Z
      else undef
  | _ => undef
  end.

(** ** Threads *)

(** env.cpp 9-15: a new ENV has one empty frame *)
Definition new_env (k : nat) : env := mkEnv k [[]] [] None [].
(** vm.cpp 468-486 AttachCurrentThread (also 499-512 GetEnv with a non-null pointer and
    AttachCurrentThreadAsDaemon): returns the identity of the environment *)
Definition Attach (t : tid) : M nat := fun s =>
  match get_env s t with
  | Some e => Ret (e_id e) s
  | None =>
      let k := s_nextenv s in
      Ret k (with_nextenv (with_envs s (aset Nat.eqb (s_envs s) t (new_env k))) (S k))
  end.
(** vm.cpp 487-498 DetachCurrentThread: the ENV with its references is destroyed.  Returning into a
    hook call of a destroyed environment would be undefined, so calls must have finished. *)
Definition Detach (t : tid) : M Z := fun s =>
  match get_env s t with
  | Some e => match e_calls e with
              | [] => Ret 0%Z (with_envs s (adel Nat.eqb (s_envs s) t))
              | _ => Undef
              end
  | None => Ret 0%Z s
  end.

(** ** C++ side *)

(** std::make_shared<T>() of a user class, kept in a C++ variable *)
Definition UNew (n : nat) (vars : nat) : M oid :=
  i <- alloc (new_obj None (PUser n (repeat None vars))) ;; add_ext i ;;; ret i.
(** std::make_shared<Object>(), with the member [clazz] set to [cl] if given *)
Definition UPlain (cl : option oid) : M oid :=
  i <- alloc (new_obj cl PPlain) ;; add_ext i ;;; ret i.
(** env.h 60-71: std::make_shared<T>(), which is [p]; the class is set from typecheck *)
Definition make_shared (T : ty) (p : pay) : M oid :=
  s <- gets (fun s => s) ;;
  i <- alloc (new_obj (type_class s T) p) ;;
  add_ext i ;;; ret i.
(** env.h 60-71 [Class::Instantiate], with object.h 21-32 and string.h 10-12.  Not modelled (undefined): instances of Class,
    Throwable, Method, Field and the references made without arguments. *)
Definition UInstantiate (cl : oid) (vars : nat) : M oid :=
  c <- get_cls cl ;;
  match c_inst c with
  | Some (TUser n) => make_shared (TUser n) (PUser n (repeat None vars))
  | Some TObject => make_shared TObject PPlain
  | Some TString => make_shared TString (PString [])
  | _ => undef
  end.
(** A C++ variable holding [i] is destroyed or reassigned. *)
Definition UDrop (i : oid) : M unit := del_ext i ;;; ret tt.
(** C++ code resolves a handle to a shared_ptr<Y> it keeps: jnitypes.h 381-383 JNICast, with [Y = TObject] also
    fake-jni.cpp 98-100 resolveReference.  Hooks receive their parameters like this (wrap.h 66-121). *)
Definition UHold (Y : ty) (h : option oid) : M (option oid) :=
  o <- match Y with TWeak => jnicast_weak h | TGlobal => jnicast_global h | _ => jnicast Y h end ;;
  match o with None => ret None | Some i => add_ext i ;;; ret (Some i) end.
(** C++ code holding [i] as shared_ptr<Y> creates a local reference (createLocalReference, ToJNIType) *)
Definition UToJNI (t : tid) (Y : ty) (i : oid) : M (option oid) :=
  s <- gets (fun s => s) ;;
  o <- deref i ;;
  if memb i (s_ext s) && isa (o_pay o) Y then to_jni t Y i else undef.
(** assignment to data member [k] (a shared_ptr) of user object [i] *)
Definition USetVar (i : oid) (k : nat) (v : option oid) : M unit :=
  s <- gets (fun s => s) ;;
  if memb i (s_ext s) && forallb (fun j => memb j (s_ext s)) (opt_list v)
  then upd_user i (fun l => list_set l k v) else undef.

(** vm.cpp 525-536 [initialize] on the thread that constructs the VM; the VM starts empty, with the root
    namespace "jnivm" (515-517). *)
Definition empty_vm : st := mkSt [] [] [] [mkNs (S_ "jnivm") [] []] [] [] 0 [] [].
Definition initialize (t : tid) : M unit :=
  Attach t ;;;
  GetClassT TObject true (S_ "java/lang/Object") ;;;
  GetClassT TClass true (S_ "java/lang/Class") ;;;
  GetClassT TString true (S_ "java/lang/String") ;;;
  GetClassT TBuffer false (S_ "java/nio/ByteBuffer") ;;;
  GetClassT TThrowable true (S_ "java/lang/Throwable") ;;;
  GetClassT TMethod true (S_ "java/lang/reflect/Method") ;;;
  GetClassT TField true (S_ "java/lang/reflect/Field") ;;;
  GetClassT TWeak true (S_ "java/lang/ref/WeakReference") ;;;
  GetClassT TGlobal true (S_ "internal/lang/Global") ;;;
  ret tt.

End Cfg.
