(** Native libraries of FakeJni::Jvm (attachLibrary, removeLibrary, destruction).
    The functions of LibraryOptions (dlopen, dlsym, dlclose) and the code of the libraries are the environment: every
    answer they can give is a parameter of the operation.  Every call to them is an event of the trace.  Successful calls
    of dlopen are numbered; equal pointers for repeated opens of one library do not matter because dlopen and dlclose
    count.  JNI_OnLoad may call attachLibrary and removeLibrary itself and may throw a C++ exception.  Not modelled:
    JNI_OnUnload calling back (it runs while a std::unordered_map erases the element: undefined), concurrent calls
    (the map is not locked), the Windows variant of LibraryOptions. *)
From Verif Require Import Base.
Set Implicit Arguments.
Unset Strict Implicit.

(** calls made to the environment; [k]: the number of the open whose handle is passed *)
Inductive ev :=
| EOpen (k : nat) (path : option str) (* dlopen succeeded; [None]: dlopen(nullptr) *)
| EFail (path : option str)           (* dlopen returned null *)
| ELoad (k : nat) (sym : str)         (* JNI_OnLoad function [sym] called *)
| EUnload (k : nat) (sym : str)       (* JNI_OnUnload function [sym] called *)
| EClose (k : nat).

(** fake-jni.h 59-67 [libinst]: handle and path; [i_unload]: the answer dlsym gives in the destructor *)
Record inst := mkInst { i_handle : option nat; i_path : str; i_unload : bool }.
(** fake-jni.h 68 [libraries]; the trace; the number of successful opens *)
Record lst := mkL { l_map : list (str * inst); l_trace : list ev; l_next : nat }.
Definition log (s : lst) (e : ev) : lst := mkL (l_map s) (l_trace s ++ [e]) (l_next s).
Definition opened (s : lst) (path : option str) : lst := mkL (l_map s) (l_trace s ++ [EOpen (l_next s) path]) (S (l_next s)).

(** attachLibrary(rpath): [opens]/[self]: answers of dlopen(rpath) and dlopen(nullptr); [finds]: dlsym finds the
    OnLoad function; [body], [throws]: what it does; [unload]: dlsym will find the OnUnload function *)
Inductive lop :=
| LAttach (rpath : str) (opens self finds : bool) (body : list lop) (throws unload : bool)
| LRemove (rpath : str).

Definition lget (m : list (str * inst)) (key : str) : option inst :=
  match find (fun x => str_eqb (fst x) key) m with Some x => Some (snd x) | None => None end.

(** fake-jni.cpp 80-88 [~libinst] *)
Definition is_empty (s : str) : bool := match s with [] => true | _ => false end.
Definition destroy (i : inst) (s : lst) : lst :=
  match i_handle i with
  | None => s
  | Some k =>
      let s1 := if i_unload i
                then log s (EUnload k (if is_empty (i_path i) then S_ "JNI_OnUnload" else S_ "JNI_OnUnload_" ++ i_path i))
                else s in
      log s1 (EClose k)
  end.
(** fake-jni.cpp 68: a name for which a library linked into the program is looked for *)
Definition plain (rpath : str) : bool :=
  negb (is_empty rpath) && negb (existsb (Ascii.eqb "/") rpath) && negb (existsb (Ascii.eqb ".") rpath).
(** fake-jni.cpp 62, 68-71: handle and path of the new instance *)
Definition open_lib (rpath : str) (opens self : bool) (s : lst) : option nat * str * lst :=
  if opens then (Some (l_next s), [], opened s (Some rpath))
  else
    let s1 := log s (EFail (Some rpath)) in
    if plain rpath then
      if self then (Some (l_next s1), rpath, opened s1 None) else (None, [], log s1 (EFail None))
    else (None, [], s1).

(** [libraries.insert]: an existing entry stays and the new instance is destroyed *)
Definition insert (rpath : str) (i : inst) (s : lst) : lst :=
  match lget (l_map s) rpath with
  | Some _ => destroy i s
  | None => mkL (l_map s ++ [(rpath, i)]) (l_trace s) (l_next s)
  end.
(** [libraries.erase] *)
Definition erase (rpath : str) (s : lst) : lst :=
  match lget (l_map s) rpath with
  | Some i => destroy i (mkL (filter (fun x => negb (str_eqb (fst x) rpath)) (l_map s)) (l_trace s) (l_next s))
  | None => s
  end.

(** fake-jni.cpp 61-78, 90-96: the constructor of libinst with the call of JNI_OnLoad, then the insertion; a
    constructor that throws does not run the destructor. *)
Fixpoint lrun (o : lop) (s : lst) {struct o} : lst :=
  match o with
  | LAttach rpath opens self finds body throws unload =>
      match open_lib rpath opens self s with
      | (None, _, s1) => insert rpath (mkInst None [] unload) s1
      | (Some k, path, s1) =>
          if finds then
            let s2 := log s1 (ELoad k (if is_empty path then S_ "JNI_OnLoad" else S_ "JNI_OnLoad_" ++ path)) in
            let s3 := (fix go (l : list lop) (s : lst) : lst := match l with [] => s | x :: l => go l (lrun x s) end) body s2 in
            if throws then s3 else insert rpath (mkInst (Some k) path unload) s3
          else insert rpath (mkInst (Some k) path unload) s1
      end
  | LRemove rpath => erase rpath s
  end.
Fixpoint lruns (l : list lop) (s : lst) : lst := match l with [] => s | x :: l => lruns l (lrun x s) end.

(** ~Jvm: the libraries are destroyed in the order in which the hash table has them; [order] chooses any. *)
Definition shutdown (order : list str) (s : lst) : lst :=
  let s1 := fold_left (fun s p => erase p s) order s in
  fold_left (fun s p => erase p s) (map fst (l_map s1)) s1.
Definition lstart : lst := mkL [] [] 0.
