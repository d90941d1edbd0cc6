(** The cache of text files, and what is read of them.
    Code: /repo/alsutils/src/io/TextFileCache.cpp, /repo/alsutils/src/make_basic_report.cpp,
    /repo/alsfvm/src/config/SimulatorSetup.cpp, /repo/alsuq/src/config/Setup.cpp.

    A name is the list of its characters.  The file system gives every absolute name a
    file ([resolve]: links and ".." are followed), and every file a text, or none if there
    is no such file or it cannot be read.  Between two operations of the program anything
    may happen to the files, and the working directory may change.  An operation is atomic:
    each locks the mutex (lines 29, 37, 61); what happens to a file while it is being read
    is not modelled. *)
From Coq Require Import List Bool Ascii String Arith.
From Verif Require Import M_Base.
Import ListNotations.
Open Scope list_scope.

Definition name : Type := list ascii.
Definition text : Type := list ascii.
Definition nm (s : string) : name := list_ascii_of_string s.
Definition same_name (a b : name) : bool := if list_eq_dec ascii_dec a b then true else false.
Definition slash : ascii := "/"%char.
Definition dot : ascii := "."%char.

Definition cache : Type := list (name * text).
(** loadedTextFiles, a std::map. *)
Fixpoint cached (c : cache) (p : name) : option text :=
  match c with
  | [] => None
  | (q, t) :: c' => if same_name q p then Some t else cached c' p
  end.

(** boost::filesystem::absolute: a name that starts with a slash is left alone, another is
    appended to the working directory. *)
Definition absolute (cwd p : name) : name :=
  match p with
  | [] => cwd
  | c :: _ => if ascii_dec c slash then p else cwd ++ [slash] ++ p
  end.

(** path::parent_path: what is before the last slash; of a file in the root, the root. *)
Fixpoint before_last_slash (p : name) : option name :=
  match p with
  | [] => None
  | c :: p' =>
      match before_last_slash p' with
      | Some q => Some (c :: q)
      | None => if ascii_dec c slash then Some [] else None
      end
  end.
Definition parent_path (p : name) : name :=
  match before_last_slash p with
  | None => []
  | Some [] => [slash]
  | Some q => q
  end.

Section Files.
Context {file : Type}.
Variable resolve : name -> file.
Definition files : Type := file -> option text.

(** loadTextFile, TextFileCache.cpp lines 36-57. *)
Definition load_text (fs : files) (cwd p : name) (c : cache) : res text * cache :=
  let a := absolute cwd p in
  match cached c a with
  | Some t => (Ok t, c)
  | None =>
      match fs (resolve a) with
      | None => (Throw, c)
      | Some t => (Ok t, (a, t) :: c)
      end
  end.

(** A run of the program: the operations, each with the files and the working directory
    it meets. *)
Record request := mkrequest { at_files : files; at_cwd : name; wanted : name }.
Fixpoint loads (rs : list request) (c : cache) : list (res text) * cache :=
  match rs with
  | [] => ([], c)
  | r :: rs' =>
      let '(x, c1) := load_text (at_files r) (at_cwd r) (wanted r) c in
      let '(xs, c2) := loads rs' c1 in (x :: xs, c2)
  end.

(** SimulatorSetup::readSetupFromFile lines 103-119 and 339-354, 660-683: the file must
    exist now; its text comes from the cache, and so do those of the files it refers to.
    [refers] gives the names in a configuration, first those after "load:", then the
    python program.  The rest of the setup depends on these texts. *)
Variable refers : text -> list name.
Fixpoint load_all (fs : files) (cwd : name) (ps : list name) (c : cache) : res (list text) * cache :=
  match ps with
  | [] => (Ok [], c)
  | p :: ps' =>
      let '(x, c1) := load_text fs cwd p c in
      match x with
      | Ok t => let '(y, c2) := load_all fs cwd ps' c1 in ((l <- y;; Ok (t :: l)), c2)
      | UB => (UB, c1)
      | Throw => (Throw, c1)
      end
  end.
Definition read_setup (fs : files) (cwd p : name) (c : cache) : res (list text) * cache :=
  match fs (resolve (absolute cwd p)) with
  | None => (Throw, c)
  | Some _ =>
      let base := parent_path (absolute cwd p) in
      let '(x, c1) := load_text fs cwd p c in
      match x with
      | Ok t => let '(y, c2) := load_all fs cwd (map (fun q => base ++ [slash] ++ q) (refers t)) c1 in
                ((l <- y;; Ok (t :: l)), c2)
      | UB => (UB, c1)
      | Throw => (Throw, c1)
      end
  end.

(** The samples of one process, FiniteVolumeSimulatorCreator.cpp line 56: one setup each,
    from the same name, with the files as they are by then. *)
Fixpoint setups (fss : list files) (cwd p : name) (c : cache) : list (res (list text)) * cache :=
  match fss with
  | [] => ([], c)
  | fs :: fss' =>
      let '(x, c1) := read_setup fs cwd p c in
      let '(xs, c2) := setups fss' cwd p c1 in (x :: xs, c2)
  end.
End Files.

(** getAllLoadedFiles, TextFileCache.cpp lines 60-70.  (In the order of the map in the
    C++; the order matters only if two names have the same key, see [report].) *)
Definition all_loaded (c : cache) : list name := map fst c.

(** make_basic_report.cpp lines 124-128: replace_all_copy twice. *)
Definition replace_all (from : ascii) (to : name) (p : name) : name :=
  flat_map (fun c => if ascii_dec c from then to else [c]) p.
Definition report_key (p : name) : name := replace_all dot (nm "_DOT_") (replace_all slash (nm "_dash_") p).

(** ptree::put below report.loadedTextFiles: the keys contain no dot, so they are
    children; an existing child is overwritten. *)
Fixpoint put (r : list (name * text)) (k : name) (t : text) : list (name * text) :=
  match r with
  | [] => [(k, t)]
  | (q, s) :: r' => if same_name q k then (q, t) :: r' else (q, s) :: put r' k t
  end.
Definition report (c : cache) (order : list name) : list (name * text) :=
  fold_left (fun r p => match cached c p with Some t => put r (report_key p) t | None => r end) order [].
