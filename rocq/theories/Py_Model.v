(* How scripts are loaded and how references to Python objects are held:
   /repo/scisim/PythonObject.cpp, /repo/scisim/PythonTools.cpp and the loading and calling parts of
   /repo/ball2d/PythonScripting.cpp (rigidbody2d and rigidbody3d have the same text). The interpreter is reached through
   its C interface only; every call to that interface is written to a log, newest first. *)
From Coq Require Import List String Ascii Arith Bool.
From Verif Require Import Outcome.
Import ListNotations.
Open Scope string_scope.

(* an object of the interpreter; a PythonObject is a pointer to one, or null *)
Definition handle := option nat.

(* the interface; P is everything the interpreter holds. Each function may answer as it likes and change P. *)
Record pyapi (P : Type) := Api {
  run_simple : string -> P -> bool * P;
  import_module : string -> P -> handle * P;
  reload_module : nat -> P -> handle * P;
  get_attr : nat -> string -> P -> handle * P;
  is_callable : nat -> P -> bool;
  call_object : nat -> P -> handle * P }.
Arguments run_simple {P}. Arguments import_module {P}. Arguments reload_module {P}.
Arguments get_attr {P}. Arguments is_callable {P}. Arguments call_object {P}.

(* what the interpreter saw. EImport, EReload, EAttr and ECall hand a new reference to the program when they succeed;
   EDrop is Py_XDECREF on an object; EFinalize is Py_Finalize; ELoad marks the construction of a PythonScripting *)
Inductive ev :=
| ELoad (path name : string)
| ECmd (command : string)
| EImport (name : string) (r : handle)
| EReload (o : nat) (r : handle)
| EAttr (o : nat) (name : string) (r : handle)
| ECallable (o : nat)
| ECall (o : nat) (r : handle)
| EDrop (o : nat)
| EFinalize.

Section Program.
Context {P : Type}.
Variable A : pyapi P.
(* the program's view: the interpreter and the log *)
Record mach := Mach { m_py : P; m_log : list ev }.
Definition say (e : ev) (m : mach) : mach := Mach (m_py m) (e :: m_log m).

(* PythonObject::~PythonObject, PythonObject.cpp:20-23 *)
Definition destroy (h : handle) (m : mach) : mach := match h with Some o => say (EDrop o) m | None => m end.
(* PythonObject( PythonObject&& ), PythonObject.cpp:14-18: the new object and what is left in the old one *)
Definition move_construct (other : handle) : handle * handle := (other, None).
(* operator=( PythonObject&& ), PythonObject.cpp:25-35, for two different objects: the two objects afterwards *)
Definition move_assign (this other : handle) (m : mach) : handle * handle * mach := (other, None, destroy this m).
(* std::swap: a temporary is move constructed, two move assignments, and the temporary is destroyed *)
Definition swap_handles (a b : handle) (m : mach) : handle * handle * mach :=
  let '(t, a) := move_construct a in
  let '(a, b, m) := move_assign a b m in
  let '(b, t, m) := move_assign b t m in
  (a, b, destroy t m).

(* PythonTools::pythonCommand, PythonTools.cpp:14-27 *)
Definition newline : string := String "010"%char EmptyString.
Definition python_command (command : string) (m : mach) : outcome mach :=
  let text := command ++ newline in
  let '(good, p) := run_simple A text (m_py m) in
  if good then Ok (Mach p (ECmd text :: m_log m)) else Exit.

(* PythonTools::loadModule, PythonTools.cpp:31-61: what loaded_module is afterwards. The reference returned by
   PyImport_ReloadModule is kept in a raw pointer and forgotten. *)
Definition load_module (path name : string) (loaded : handle) (m : mach) : outcome (handle * mach) :=
  let! m := python_command ("sys.path.insert( 0, '" ++ path ++ "' )") m in
  let '(r, p) := import_module A name (m_py m) in
  let m := Mach p (EImport name r :: m_log m) in
  let '(loaded, temporary, m) := move_assign loaded r m in
  let m := destroy temporary m in
  match loaded with
  | None => Exit
  | Some o =>
      let '(r, p) := reload_module A o (m_py m) in
      let m := Mach p (EReload o r :: m_log m) in
      match r with
      | None => Exit
      | Some _ =>
          let! m := python_command "sys.path.pop( 0 )" m in
          Ok (Some o, m)
      end
  end.

(* PythonTools::loadFunction, PythonTools.cpp:63-83: what function is afterwards *)
Definition load_function (fname : string) (module : nat) (function : handle) (m : mach) : outcome (handle * mach) :=
  let '(r, p) := get_attr A module fname (m_py m) in
  let m := Mach p (EAttr module fname r :: m_log m) in
  let! m := match r with
            | None => Ok m
            | Some f => if is_callable A f (m_py m) then Ok (say (ECallable f) m) else Exit
            end in
  let '(function, new_function, m) := swap_handles function r m in
  Ok (function, destroy new_function m).

(* the names of the callbacks, in the order they are looked up, PythonScripting.cpp:90-111 *)
Definition callbacks : list string :=
  ["startOfSim"; "endOfSim"; "startOfStep"; "endOfStep"; "frictionCoefficient"; "restitutionCoefficient"].
(* the members of PythonScripting; the six callbacks in the order above *)
Record scripting := Scripting { s_path : string; s_name : string; s_module : handle; s_hooks : list handle }.
(* the default constructor, PythonScripting.cpp:30-42 *)
Definition no_script : scripting := Scripting "" "" None (map (fun _ => None) callbacks).

Fixpoint load_functions (names : list string) (module : nat) (hooks : list handle) (m : mach) : outcome (list handle * mach) :=
  match names, hooks with
  | n :: names, h :: hooks =>
      let! r := load_function n module h m in
      let! r' := load_functions names module hooks (snd r) in
      Ok (fst r :: fst r', snd r')
  | _, _ => Ok ([], m)
  end.
(* PythonScripting( path, module_name ) and PythonScripting( istream ), PythonScripting.cpp:44-76, with
   intializePythonCallbacks, 78-120 *)
Definition construct (path name : string) (m : mach) : outcome (scripting * mach) :=
  let m := say (ELoad path name) m in
  let none := map (fun _ => None) callbacks in
  if String.eqb name "" then Ok (Scripting path name None none, m)
  else
    let! r := load_module path name None m in
    match fst r with
    | None => Exit
    | Some o =>
        let! r' := load_functions callbacks o none (snd r) in
        Ok (Scripting path name (fst r) (fst r'), snd r')
    end.
Fixpoint swap_all (a b : list handle) (m : mach) : list handle * list handle * mach :=
  match a, b with
  | x :: a, y :: b =>
      let '(x, y, m) := swap_handles x y m in
      let '(a, b, m) := swap_all a b m in (x :: a, y :: b, m)
  | _, _ => (a, b, m)
  end.
(* swap, PythonScripting.cpp:122-136 *)
Definition swap_scripting (a b : scripting) (m : mach) : scripting * scripting * mach :=
  let '(x, y, m) := swap_handles (s_module a) (s_module b) m in
  let '(u, v, m) := swap_all (s_hooks a) (s_hooks b) m in
  (Scripting (s_path b) (s_name b) x u, Scripting (s_path a) (s_name a) y v, m).
(* the implicit destructor: the members in reverse order of declaration *)
Definition destroy_scripting (s : scripting) (m : mach) : mach :=
  destroy (s_module s) (fold_right destroy m (s_hooks s)).

(* ball2dcli/ball2d_cli.cpp:147-148, 301-302 and ball2dqt4/GLWidget.cpp: PythonScripting new_scripting{ path, name };
   swap( scripting, new_scripting ); and the end of the scope of new_scripting *)
Definition load (path name : string) (s : scripting) (m : mach) : outcome (scripting * mach) :=
  let! r := construct path name m in
  let '(s, old, m) := swap_scripting s (fst r) (snd r) in
  Ok (s, destroy_scripting old m).
(* the ...Callback functions, ScriptingCallback.cpp:12-67, with startOfSim, endOfSim, startOfStep, endOfStep,
   frictionCoefficient and restitutionCoefficient, PythonScripting.cpp:138-300, for the k-th of the callbacks; what the
   script can reach meanwhile is in Flow_Model and Arr_Model *)
Definition callback (k : nat) (s : scripting) (m : mach) : outcome mach :=
  if String.eqb (s_name s) "" then Ok m
  else match nth k (s_hooks s) None with
       | None => Ok m
       | Some f =>
           let '(r, p) := call_object A f (m_py m) in
           let m := Mach p (ECall f r :: m_log m) in
           match r with None => Exit | Some v => Ok (destroy (Some v) m) end
       end.

(* what a program does with its scripting object *)
Inductive action := Load (path name : string) | Callback (k : nat).
Definition act (a : action) (s : scripting) (m : mach) : outcome (scripting * mach) :=
  match a with
  | Load path name => load path name s m
  | Callback k => let! m := callback k s m in Ok (s, m)
  end.
Fixpoint acts (l : list action) (s : scripting) (m : mach) : outcome (scripting * mach) :=
  match l with
  | [] => Ok (s, m)
  | a :: l => let! r := act a s m in acts l (fst r) (snd r)
  end.
(* the end of the graphical programs, ball2dqt4/ball2d_qt4.cpp: the window in main, and the scripting object in it, is
   destroyed when main returns; the function registered with atexit runs afterwards *)
Definition gui_exit (s : scripting) (m : mach) : mach := say EFinalize (destroy_scripting s m).
(* the end of the command line programs, ball2dcli/ball2d_cli.cpp:54, 595-600, 638: g_scripting has static storage and
   its constructor ended before atexit was called, so its destructor runs after the registered function *)
Definition cli_exit (s : scripting) (m : mach) : mach := destroy_scripting s (say EFinalize m).
End Program.
Arguments Mach {P}. Arguments m_py {P}. Arguments m_log {P}.

(* ---------- the part of the interpreter that finds scripts ---------- *)
(* Python 2's reading of a string literal in single quotes, after the opening quote: its value and what follows it.
   Octal and hexadecimal escapes are not modelled: the literal is taken as ill-formed. *)
Definition escape (c : ascii) : option string :=
  let one n := Some (String (ascii_of_nat n) EmptyString) in
  match nat_of_ascii c with
  | 10 => Some EmptyString
  | 92 => one 92 | 39 => one 39 | 34 => one 34
  | 97 => one 7 | 98 => one 8 | 102 => one 12 | 110 => one 10 | 114 => one 13 | 116 => one 9 | 118 => one 11
  | 120 | 48 | 49 | 50 | 51 | 52 | 53 | 54 | 55 => None
  | _ => Some (String (ascii_of_nat 92) (String c EmptyString))
  end.
Fixpoint read_literal (s : string) : option (string * string) :=
  match s with
  | EmptyString => None
  | String c s =>
      if (nat_of_ascii c =? 39)%nat then Some (EmptyString, s)
      else if (nat_of_ascii c =? 10)%nat then None
      else if (nat_of_ascii c =? 92)%nat then
        match s with
        | EmptyString => None
        | String d s => match escape d, read_literal s with
                        | Some e, Some (v, rest) => Some (e ++ v, rest)
                        | _, _ => None
                        end
        end
      else match read_literal s with Some (v, rest) => Some (String c v, rest) | None => None end
  end.
Fixpoint after_prefix (p s : string) : option string :=
  match p, s with
  | EmptyString, _ => Some s
  | String a p, String b s => if Ascii.eqb a b then after_prefix p s else None
  | _, _ => None
  end.
Inductive command := Insert (d : string) | Pop | Other.
Definition read_command (t : string) : command :=
  if String.eqb t ("sys.path.pop( 0 )" ++ newline) then Pop
  else match after_prefix "sys.path.insert( 0, '" t with
       | Some t => match read_literal t with
                   | Some (d, rest) => if String.eqb rest (" )" ++ newline) then Insert d else Other
                   | None => Other
                   end
       | None => Other
       end.

(* what running a file binds at the top level, in order, and whether each is callable; None if running it raises *)
Definition source := option (list (string * bool)).
(* the files: directory, module name, content *)
Definition files := string -> string -> option source.
(* sys.path, sys.modules, the dictionaries of the modules, which objects are callable, the next unused object *)
Record py := Py { p_path : list string; p_mods : list (string * nat); p_dict : nat -> list (string * nat);
                  p_call : nat -> bool; p_next : nat }.
Fixpoint assoc (n : string) (l : list (string * nat)) : handle :=
  match l with [] => None | (k, o) :: l => if String.eqb k n then Some o else assoc n l end.
(* the first directory of sys.path that has the module *)
Fixpoint find_module (fs : files) (path : list string) (name : string) : option source :=
  match path with
  | [] => None
  | d :: path => match fs d name with Some s => Some s | None => find_module fs path name end
  end.
(* binding a name to a fresh object in the dictionary of module o *)
Definition bind1 (o : nat) (p : py) (b : string * bool) : py :=
  Py (p_path p) (p_mods p) (fun x => if (x =? o)%nat then (fst b, p_next p) :: p_dict p x else p_dict p x)
     (fun x => if (x =? p_next p)%nat then snd b else p_call p x) (S (p_next p)).
Definition exec (o : nat) (l : list (string * bool)) (p : py) : py := fold_left (bind1 o) l p.
(* import: a module in sys.modules is returned as it is; otherwise the file is run in a new module *)
Definition py_import (fs : files) (name : string) (p : py) : handle * py :=
  match assoc name (p_mods p) with
  | Some o => (Some o, p)
  | None =>
      match find_module fs (p_path p) name with
      | Some (Some l) =>
          let o := p_next p in
          (Some o, exec o l (Py (p_path p) ((name, o) :: p_mods p) (fun x => if (x =? o)%nat then [] else p_dict p x) (p_call p) (S o)))
      | _ => (None, p)
      end
  end.
Fixpoint name_of (o : nat) (l : list (string * nat)) : option string :=
  match l with [] => None | (k, x) :: l => if (x =? o)%nat then Some k else name_of o l end.
(* reload: the file is looked for again and run in the same module, whose old bindings stay *)
Definition py_reload (fs : files) (o : nat) (p : py) : handle * py :=
  match name_of o (p_mods p) with
  | Some name => match find_module fs (p_path p) name with Some (Some l) => (Some o, exec o l p) | _ => (None, p) end
  | None => (None, p)
  end.
Definition py_run (t : string) (p : py) : bool * py :=
  match read_command t with
  | Insert d => (true, Py (d :: p_path p) (p_mods p) (p_dict p) (p_call p) (p_next p))
  | Pop => match p_path p with
           | [] => (false, p)
           | _ :: l => (true, Py l (p_mods p) (p_dict p) (p_call p) (p_next p))
           end
  | Other => (false, p)
  end.
(* the interpreter with these files; calling a function returns a fresh object *)
Definition python (fs : files) : pyapi py :=
  Api py py_run (py_import fs) (py_reload fs) (fun o n p => (assoc n (p_dict p o), p)) (fun o p => p_call p o)
      (fun _ p => (Some (p_next p), Py (p_path p) (p_mods p) (p_dict p) (p_call p) (S (p_next p)))).
