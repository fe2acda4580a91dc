(** Model of the test directories, resim/testing/test_directory.cc, and of the tracker of moves
    and copies, resim/testing/move_copy_tracker.cc.

    Simplifications: there are no symbolic links and no rights, so that remove_all does not
    fail; a file system is a function from places to what is there; UUID::new_uuid gives
    [ids 0], [ids 1], ... *)
From Coq Require Import ZArith List Ascii.
From Verif Require Import Cpp UuidModel FloatModel.
Import ListNotations.

(** ** The file system *)
(** A place: the names from the root on.  What is there: a directory or a file with a content. *)
Definition place := list text.
Inductive node := Dir | File (content : text).
Definition tree := place -> option node.
(** std::filesystem::path: whether it starts with a slash, and its names (it is split at the
    slashes, [slash_names]). *)
Record path := Path { absolute : bool; names : list text }.
Definition slash : ascii := "/"%char.
Definition dot : ascii := "."%char.
Fixpoint slash_names_from (name : text) (s : text) : list text :=
  match s with
  | [] => [name]
  | c :: s => if Ascii.eqb c slash then name :: slash_names_from [] s else slash_names_from (name ++ [c]) s
  end.
Definition slash_names (s : text) : list text := slash_names_from [] s.
(** operator/ of a path and a text that does not start with a slash. *)
Definition path_append (p : path) (s : text) : path := Path (absolute p) (names p ++ slash_names s).
(** Where the system looks for a path, from the current directory [cwd] when it has no slash in
    front: "" and "." stay, ".." goes up. *)
Fixpoint text_eqb (a b : text) : bool :=
  match a, b with [], [] => true | x :: a, y :: b => Ascii.eqb x y && text_eqb a b | _, _ => false end.
Definition step (p : place) (name : text) : place :=
  if text_eqb name [] || text_eqb name [dot] then p else if text_eqb name [dot; dot] then removelast p else p ++ [name].
Definition locate (cwd : place) (p : path) : place := fold_left step (names p) (if absolute p then [] else cwd).
(** std::filesystem::is_directory. *)
Definition is_directory (t : tree) (p : place) : bool := match t p with Some Dir => true | _ => false end.
(** std::filesystem::create_directory: false when there is a directory already, an exception
    when there is a file or when there is no directory to put it in. *)
Fixpoint place_eqb (p q : place) : bool :=
  match p, q with [], [] => true | x :: p, y :: q => text_eqb x y && place_eqb p q | _, _ => false end.
Definition create_directory (t : tree) (p : place) : outcome (bool * tree) :=
  match t p with
  | Some Dir => Ok (false, t)
  | Some (File _) => Throw
  | None => if is_directory t (removelast p) then Ok (true, fun q => if place_eqb q p then Some Dir else t q) else Throw
  end.
(** std::filesystem::remove_all: what is there goes with all beneath it. *)
Fixpoint beneath (p q : place) : bool :=
  match p, q with [], _ => true | x :: p, y :: q => text_eqb x y && beneath p q | _ :: _, [] => false end.
Definition remove_all (t : tree) (p : place) : tree := fun q => if beneath p q then None else t q.
(** std::filesystem::temp_directory_path: [temp] is what the environment names, /tmp when it
    names nothing; an exception when it is no directory. *)
Definition temp_directory_path (temp : path) (t : tree) (cwd : place) : outcome path :=
  let* _ := reassert (is_directory t (locate cwd temp)) in Ok temp.

(** ** TestDirectoryRAII *)
(** TestDirectoryRAII(): test_directory.cc:16-20; the path that the object holds and the file
    system after.  An exception leaves no object, so that its destructor is not run. *)
Definition make_directory (ids : nat -> uuid) (temp : path) (cwd : place) (next : nat) (t : tree) : outcome (path * tree) :=
  let* tmp := temp_directory_path temp t cwd in
  let path_ := path_append tmp (to_string (ids next)) in
  let* (cond, t) := create_directory t (locate cwd path_) in
  let* _ := reassert cond in
  Ok (path_, t).
(** ~TestDirectoryRAII(): test_directory.cc:22. *)
Definition destroy_directory (path_ : path) (cwd : place) (t : tree) : tree := remove_all t (locate cwd path_).
(** test_file_path: test_directory.cc:26-32. *)
Definition test_file_path (ids : nat -> uuid) (next : nat) (path_ : path) (extension : text) : path :=
  match extension with
  | [] => path_append path_ (to_string (ids next))
  | _ => path_append path_ ((to_string (ids next) ++ [dot]) ++ extension)
  end.

(** ** Tests that use them *)
(** What a test does with its directories: it makes one for the length of a block, changes what
    is beneath the [k]-th of those it has (the last made is the first) in any way, goes to
    another current directory, asks for a path, or throws. *)
Inductive test :=
| Done
| Fail
| Within (body : test) (rest : test)
| Change (k : nat) (to : tree) (rest : test)
| Go (cwd : place) (rest : test)
| Ask (rest : test).
(** The current directory, the number of ids made and the file system. *)
Record world := World { w_cwd : place; w_next : nat; w_tree : tree }.
(** How the language runs a test: at the end of a block, by an exception or not, the directory
    of the block is destroyed.  [held] are the paths of the directories held, the last first.
    True when the test came to its end. *)
Fixpoint run (ids : nat -> uuid) (temp : path) (held : list path) (a : test) (w : world) : bool * world :=
  match a with
  | Done => (true, w)
  | Fail => (false, w)
  | Within body rest =>
      match make_directory ids temp (w_cwd w) (w_next w) (w_tree w) with
      | Ok (p, t) =>
          let '(ended, w) := run ids temp (p :: held) body (World (w_cwd w) (S (w_next w)) t) in
          let w := World (w_cwd w) (w_next w) (destroy_directory p (w_cwd w) (w_tree w)) in
          if ended then run ids temp held rest w else (false, w)
      | _ => (false, w)
      end
  | Change k to rest =>
      match nth_error held k with
      | Some p => run ids temp held rest (World (w_cwd w) (w_next w) (fun q => if beneath (locate (w_cwd w) p) q then to q else w_tree w q))
      | None => (false, w)
      end
  | Go cwd rest => run ids temp held rest (World cwd (w_next w) (w_tree w))
  | Ask rest => run ids temp held rest (World (w_cwd w) (S (w_next w)) (w_tree w))
  end.

(** ** MoveCopyTracker *)
(** Its two counters: move_copy_tracker.hh:37-38. *)
Record tracker := Tracker { num_moves : Z; num_copies : Z }.
(** An int plus one. *)
Definition next_int (i : Z) : outcome Z := if (i =? INT_MAX)%Z then UB else Ok (i + 1)%Z.
(** MoveCopyTracker(): move_copy_tracker.hh:20, 37-38. *)
Definition tracker_new : tracker := Tracker 0 0.
(** The constructors: move_copy_tracker.cc:11-17. *)
Definition copied (other : tracker) : outcome tracker := let* c := next_int (num_copies other) in Ok (Tracker (num_moves other) c).
Definition moved (other : tracker) : outcome tracker := let* m := next_int (num_moves other) in Ok (Tracker m (num_copies other)).
(** The assignments, which the object assigned to may be the other of: move_copy_tracker.cc:19-28. *)
Definition copy_assigned (self other : tracker) : outcome tracker := let* c := next_int (num_copies other) in Ok (Tracker (num_moves other) c).
Definition move_assigned (self other : tracker) : outcome tracker := let* m := next_int (num_moves other) in Ok (Tracker m (num_copies other)).
(** A program on trackers, named by numbers; an object that is not there is not to be used. *)
Inductive tracker_op := New (x : nat) | CopyTo (x other : nat) | MoveTo (x other : nat) | CopyAssign (x other : nat) | MoveAssign (x other : nat).
Definition objects := nat -> option tracker.
Definition put (o : objects) (x : nat) (v : tracker) : objects := fun y => if Nat.eqb y x then Some v else o y.
Definition get (o : objects) (x : nat) : outcome tracker := match o x with Some v => Ok v | None => UB end.
Definition tracker_step (o : objects) (op : tracker_op) : outcome objects :=
  match op with
  | New x => Ok (put o x tracker_new)
  | CopyTo x other => let* v := get o other in let* v := copied v in Ok (put o x v)
  | MoveTo x other => let* v := get o other in let* v := moved v in Ok (put o x v)
  | CopyAssign x other => let* u := get o x in let* v := get o other in let* v := copy_assigned u v in Ok (put o x v)
  | MoveAssign x other => let* u := get o x in let* v := get o other in let* v := move_assigned u v in Ok (put o x v)
  end.
Fixpoint tracker_run (o : objects) (ops : list tracker_op) : outcome objects :=
  match ops with [] => Ok o | op :: ops => let* o := tracker_step o op in tracker_run o ops end.
