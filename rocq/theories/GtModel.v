(* From a git tree to an archive: grader/input.go:23-191 (GetProblemInformation and
   CreateArchiveFromGit), 273-289 (Transmit) and runner/input.go:287-308 (Persist over
   HTTP).  The tar and gzip formats are parameters. *)
From Coq Require Import String Ascii List Bool ZArith.
From Verif Require Import GoStr InModel.
Import ListNotations.
Local Open Scope string_scope.

(* path.Clean, for a path that may be relative. *)
Definition clean_seg (p : list string) (s : string) : list string :=
  if (s =? "") || (s =? ".") then p
  else if s =? ".." then match p with [] => [".."] | _ => if last p "" =? ".." then (p ++ [".."])%list else removelast p end
  else (p ++ [s])%list.
Definition Clean (s : string) : string :=
  match s with
  | "" => "."
  | String c _ => if Ascii.eqb c "/" then path_text (path_join [] s)
                  else match fold_left clean_seg (split "/" s) [] with [] => "." | l => join "/" l end
  end.
(* path.Join of two elements. *)
Definition Join (a b : string) : string :=
  if a =? "" then (if b =? "" then "" else Clean b) else if b =? "" then Clean a else Clean (a ++ "/" ++ b).

(* A git tree object as the repository gives it: its entries in their order.  The object
   of an entry may be missing or damaged (Lost). *)
Inductive gtree :=
| End
| Blob (name content : string) (rest : gtree)
| LostBlob (name : string) (rest : gtree)
| Sub (name : string) (sub rest : gtree)
| LostSub (name : string) (rest : gtree)
| Link (name : string) (rest : gtree).      (* a commit of another repository *)

(* The variables of CreateArchiveFromGit, and what was written to the archive. *)
Record walking := { walkErr : bool; foundSettings : bool; uncompressedSize : Z; headers : list entry }.
(* grader/input.go:117-121 *)
Definition seen (entryPath : string) (s : walking) : walking :=
  {| walkErr := walkErr s; foundSettings := (entryPath =? "settings.json") || foundSettings s; uncompressedSize := uncompressedSize s; headers := headers s |}.
(* 123-133; writing does not fail here: that is InModel.v's grader_Persist. *)
Definition on_tree (entryPath : string) (s : walking) : walking :=
  {| walkErr := walkErr s; foundSettings := foundSettings s; uncompressedSize := uncompressedSize s; headers := headers s ++ [EDir entryPath] |}.
(* 135-172, the object can be read (as a stream or at once: lines 157-171) *)
Definition on_blob (entryPath content : string) (s : walking) : walking :=
  {| walkErr := walkErr s; foundSettings := foundSettings s; uncompressedSize := uncompressedSize s + Z.of_nat (String.length content);
     headers := headers s ++ [EFile entryPath content] |}.
(* 137-141, the object cannot be read: -1 is returned *)
Definition on_lost (s : walking) : walking :=
  {| walkErr := true; foundSettings := foundSettings s; uncompressedSize := uncompressedSize s; headers := headers s |}.

(* libgit2's git_tree_walk, in pre-order, with the callback of 117-175; whether the walk
   goes on.  A subtree that cannot be read ends the walk (after its callback); the error
   Walk returns is not looked at (line 117). *)
Fixpoint walk (parent : string) (t : gtree) (s : walking) : bool * walking :=
  match t with
  | End => (true, s)
  | Blob name content rest =>
      let e := Join parent name in walk parent rest (on_blob e content (seen e s))
  | LostBlob name rest => (false, on_lost (seen (Join parent name) s))
  | Sub name sub rest =>
      let e := Join parent name in
      let (go, s1) := walk (parent ++ name ++ "/") sub (on_tree e (seen e s)) in
      if go then walk parent rest s1 else (false, s1)
  | LostSub name rest => let e := Join parent name in (false, on_tree e (seen e s))
  | Link name rest => walk parent rest (seen (Join parent name) s)
  end.
(* grader/input.go:80-191: what was written, and the size or an error.  The tree is what
   LookupTree (lines 93-97) finds, if it is found. *)
Definition CreateArchiveFromGit (tree : option gtree) : list entry * option Z :=
  match tree with
  | None => ([], None)
  | Some t =>
      let (_, s) := walk "" t {| walkErr := false; foundSettings := false; uncompressedSize := 0; headers := [] |} in
      (headers s, if walkErr s then None else if negb (foundSettings s) then None else Some (uncompressedSize s))
  end.

(* git's EntryByName with LookupBlob (grader/input.go:56-65): the contents, if there is
   such an entry and it is a blob. *)
Fixpoint blob_named (t : gtree) (n : string) : option string :=
  match t with
  | End => None
  | Blob name c rest => if name =? n then Some c else blob_named rest n
  | LostBlob name rest | LostSub name rest | Link name rest => if name =? n then None else blob_named rest n
  | Sub name _ rest => if name =? n then None else blob_named rest n
  end.
(* A repository: the tree of its private branch, by its hash, and the trees by hash. *)
Record repository := { private_tree : option string; trees : string -> option gtree }.
(* grader/input.go:31-74; unmarshal is json.Unmarshal into ProblemSettings. *)
Definition GetProblemInformation {settings : Type} (unmarshal : string -> option settings) (r : repository) : option (string * settings) :=
  match private_tree r with
  | None => None
  | Some h =>
      match trees r h with
      | None => None
      | Some t => match blob_named t "settings.json" with
                  | None => None
                  | Some c => match unmarshal c with Some s => Some (h, s) | None => None end
                  end
      end
  end.

Section Wire.
Variable digest : string -> string.
Variable settings_ok : string -> bool.
(* The bytes of the archive of some entries: those written while walking and those
   written when the writers are closed; and what the readers make of some bytes: whether
   they are readable at all, the entries, and whether these end well. *)
Variable body trailer : list entry -> string.
Variable untar : string -> bool * list entry * bool.

(* common/inputmanager.go:283-319 with grader/input.go:299-351 *)
Definition grader_Add (a : path) (tree : option gtree) : prog :=
  let (es, total) := CreateArchiveFromGit tree in
  grader_add digest a (body es) (trailer es) (match total with Some z => z | None => 0%Z end) (match total with Some _ => true | None => false end).
(* What Transmit sends. *)
Record response := { Content_SHA1 : string; Uncompressed_Size : string; content_ : string }.
(* grader/input.go:273-289 *)
Definition Transmit (a : path) (storedHash : string) (uncompressedSize : Z) (f : fs) : option response :=
  match f a with
  | Some (File c) => Some {| Content_SHA1 := storedHash; Uncompressed_Size := fmt_int uncompressedSize; content_ := c |}
  | _ => None
  end.
(* runner/input.go:287-308; no response: the request failed *)
Definition runner_Persist (p : path) (resp : option response) : prog :=
  match resp with
  | None => Ret Err
  | Some resp =>
      match ParseInt (Uncompressed_Size resp) with
      | None => Ret Err
      | Some _ => let '(readable, es, clean) := untar (content_ resp) in
                  persist_tar digest settings_ok p (content_ resp) readable es clean (Content_SHA1 resp)
      end
  end.
Definition runner_Add (p : path) (resp : option response) : prog :=
  add (runner_Verify digest settings_ok p) (runner_Delete p) (runner_Persist p resp).
End Wire.
