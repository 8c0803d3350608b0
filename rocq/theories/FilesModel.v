(** Model of util/file_utils.go, of the file names built in playback/playback.go and metadata/,
    of the completion of ls (ssh/command.go:137-152) and queue
    (schedule/server_state_commands.go:76-88), and of the parts of Go's path/filepath they use
    (on Unix; documented behaviour, not the byte loops).  File names are valid UTF-8. *)
From Verif Require Import GoBase.
Local Open Scope N_scope.

(* ------------------------------------------------------------------ *)
(** ** path/filepath *)

(** strings.Split(s, "/") *)
Fixpoint split_slash (s : text) : list text :=
  match s with
  | [] => [[]]
  | c :: r =>
      if c =? 47 then [] :: split_slash r
      else match split_slash r with
           | [] => [[c]]
           | w :: ws => (c :: w) :: ws
           end
  end.

(** filepath.Clean: the elements kept, with the stack of elements so far reversed: empty
    elements and . are dropped, .. removes the element before it, or is dropped at the root. *)
Fixpoint clean_elems (rooted : bool) (stack : list text) (cs : list text) : list text :=
  match cs with
  | [] => rev stack
  | c :: r =>
      if text_eqb c [] || text_eqb c (T ".") then clean_elems rooted stack r
      else if text_eqb c (T "..") then
        match stack with
        | [] => if rooted then clean_elems rooted [] r else clean_elems rooted [c] r
        | top :: st => if text_eqb top (T "..") then clean_elems rooted (c :: stack) r
                       else clean_elems rooted st r
        end
      else clean_elems rooted (c :: stack) r
  end%bool.

(** path/filepath, Clean: rooted := path[0] == '/' (used through util/file_utils.go and playback/playback.go:35) *)
Definition is_rooted (p : text) : bool := has_prefix p (T "/").
(** path/filepath, Clean: the elements joined again *)
Definition render (rooted : bool) (cs : list text) : text :=
  if rooted then T "/" ++ join (T "/") cs
  else match cs with [] => T "." | _ => join (T "/") cs end.
(** path/filepath, Clean *)
Definition clean (p : text) : text :=
  match p with
  | [] => T "."
  | _ => render (is_rooted p) (clean_elems (is_rooted p) [] (split_slash p))
  end.

(** filepath.Join of two elements (path.Join is the same on Unix) *)
Definition join_path (a b : text) : text :=
  match a, b with
  | [], [] => []
  | [], _ => clean b
  | _, _ => clean (a ++ T "/" ++ b)
  end.

(** filepath.Split: everything up to the last separator, and the rest *)
Fixpoint split_file (p : text) : text * text :=
  match p with
  | [] => ([], [])
  | c :: r => let '(d, f) := split_file r in
              match d with
              | [] => if c =? 47 then ([c], f) else ([], c :: f)
              | _ => (c :: d, f)
              end
  end.

(** filepath.Match: a pattern as a list of terms.  [None]: malformed. *)
Inductive term :=
| TStar
| TAny
| TLit (c : rune)
| TClass (negated : bool) (ranges : list (rune * rune)).

(** getEsc: a possibly escaped character inside [...], which must not be the last one *)
Definition get_esc (p : text) : option (rune * text) :=
  match p with
  | [] => None
  | c :: r =>
      if (c =? 45) || (c =? 93) then None
      else if c =? 92 then
        match r with
        | e :: (_ :: _) as r' => Some (e, tl r)
        | _ => None
        end
      else match r with [] => None | _ => Some (c, r) end
  end%bool.

(** the ranges of [...] up to the closing bracket *)
Fixpoint class_ranges (fuel : nat) (acc : list (rune * rune)) (p : text) : option (list (rune * rune) * text) :=
  match fuel with
  | O => None
  | S f =>
      match acc, p with
      | _ :: _, 93 :: r => Some (acc, r)
      | _, _ =>
          match get_esc p with
          | None => None
          | Some (lo, 45 :: r) =>
              match get_esc r with
              | None => None
              | Some (hi, r') => class_ranges f (acc ++ [(lo, hi)]) r'
              end
          | Some (lo, r) => class_ranges f (acc ++ [(lo, lo)]) r
          end
      end
  end.

(** path/filepath, Match: the pattern in parts; the fuel is its length *)
Fixpoint parse_pattern (fuel : nat) (p : text) : option (list term) :=
  match fuel with
  | O => Some []
  | S f =>
      let more t r := match parse_pattern f r with None => None | Some ts => Some (t :: ts) end in
      match p with
      | [] => Some []
      | 42 :: r => more TStar r
      | 63 :: r => more TAny r
      | 92 :: [] => None
      | 92 :: c :: r => more (TLit c) r
      | 91 :: r =>
          let negated := has_prefix r (T "^") in
          match class_ranges (length r) [] (if negated then tl r else r) with
          | None => None
          | Some (ranges, r') => more (TClass negated ranges) r'
          end
      | c :: r => more (TLit c) r
      end
  end.

(** path/filepath, matchChunk: c is in one of the ranges *)
Definition in_ranges (rs : list (rune * rune)) (c : rune) : bool :=
  existsb (fun r => (fst r <=? c) && (c <=? snd r))%bool rs.

(** a name matched by the terms, to its end; * and ? do not match the separator *)
Fixpoint matches (ts : list term) (n : text) {struct ts} : bool :=
  match ts with
  | [] => match n with [] => true | _ => false end
  | TStar :: r =>
      (fix star (n : text) : bool :=
         matches r n || match n with [] => false | c :: n' => negb (c =? 47) && star n' end)%bool n
  | TAny :: r => match n with c :: n' => negb (c =? 47) && matches r n' | [] => false end%bool
  | TLit l :: r => match n with c :: n' => (c =? l) && matches r n' | [] => false end%bool
  | TClass neg rs :: r => match n with c :: n' => negb (Bool.eqb (in_ranges rs c) neg) && matches r n' | [] => false end%bool
  end.

(** hasMeta *)
Definition has_meta (p : text) : bool :=
  existsb (fun c => (c =? 42) || (c =? 63) || (c =? 91) || (c =? 92))%bool p.

(* ------------------------------------------------------------------ *)
(** ** The file system as the program sees it *)

(** What Walk meets at a path: a file, a symbolic link (not followed), a directory with its
    entries sorted by name ([None]: they cannot be read), or an entry that os.Lstat fails on. *)
Inductive node :=
| File
| Link
| Dir (entries : option (list (text * node)))
| Gone.

(** - [lstat]: os.Lstat of a path ([None]: error), with everything below it;
    - [is_file]: util.IsFile (file_utils.go:123-128);
    - [dir_names]: the sorted names in a directory that exists and can be opened. *)
Record fs := { lstat : text -> option node; is_file : text -> bool; dir_names : text -> option (list text) }.

(** filepath.Walk with a function that returns the errors it is given: the entries visited
    (path, is a directory) in order, and whether an error ended the walk. *)
Fixpoint walk (path : text) (n : node) : list (text * bool) * bool :=
  match n with
  | File | Link => ([(path, false)], false)
  | Gone | Dir None => ([], true)
  | Dir (Some es) =>
      let '(below, stopped) :=
        (fix children (es : list (text * node)) : list (text * bool) * bool :=
           match es with
           | [] => ([], false)
           | (name, c) :: r =>
               let '(v, stopped) := walk (join_path path name) c in
               if stopped : bool then (v, true)
               else let '(v', stopped') := children r in (v ++ v', stopped')
           end) es in
      ((path, true) :: below, stopped)
  end.

(** path/filepath, Walk: the root and, if it is a directory, what is below it (util/file_utils.go:22-57) *)
Definition walk_root (w : fs) (root : text) : list (text * bool) :=
  match lstat w root with None => [] | Some n => fst (walk root n) end.

(** filepath.Glob (with Match as above; a malformed pattern is always reported, Go before
    1.16 may report no match instead) *)
Definition glob_in (w : fs) (dir file : text) : option (list text) :=
  match dir_names w dir with
  | None | Some [] => Some []
  | Some names =>
      match parse_pattern (length file) file with
      | None => None
      | Some ts => Some (map (join_path dir) (filter (matches ts) names))
      end
  end.
Definition clean_glob_path (p : text) : text :=
  match p with
  | [] => T "."
  | _ => if text_eqb p (T "/") then p else removelast p
  end.
Fixpoint concat_opt {A} (l : list (option (list A))) : option (list A) :=
  match l with
  | [] => Some []
  | None :: _ => None
  | Some x :: r => match concat_opt r with None => None | Some y => Some (x ++ y) end
  end.
Fixpoint glob (fuel : nat) (w : fs) (pattern : text) : option (list text) :=
  if negb (has_meta pattern) then
    match lstat w pattern with None => Some [] | Some _ => Some [pattern] end
  else
    let '(d, file) := split_file pattern in
    let dir := clean_glob_path d in
    if negb (has_meta dir) then glob_in w dir file
    else match fuel with
         | O => None
         | S f => match glob f w dir with
                  | None => None
                  | Some m => concat_opt (map (fun d => glob_in w d file) m)
                  end
         end.

(* ------------------------------------------------------------------ *)
(** ** util/file_utils.go *)

(** 12-20 (FilterSongs) *)
Definition filter_songs (l : list text) : list text := filter (fun f => has_suffix f (T ".mp3")) l.

(** 37-45 (removeDirPrefix) *)
Definition remove_dir_prefix (path prefix : text) : text :=
  let path := if has_prefix path prefix then skipn (length prefix) path else path in
  if has_prefix path (T "/") || has_prefix path (T "\") then tl path else path.

(** 22-35 (walker) *)
Definition walker (w : fs) (root : text) (transform : text -> text) (keep : text -> bool -> bool) : list text :=
  map fst (filter (fun e => keep (fst e) (snd e)) (map (fun e => (transform (fst e), snd e)) (walk_root w root))).

(** 47-59 (ListAllFiles) *)
Definition list_all_files (w : fs) (songs_dir sub_dir : text) : list text :=
  let dir := match sub_dir with [] => songs_dir | _ => join_path songs_dir sub_dir end in
  walker w dir (fun p => remove_dir_prefix p songs_dir)
         (fun p is_dir => negb (text_eqb p []) && negb is_dir)%bool.

(** 61-68 (ListAllSubDirs) *)
Definition list_all_sub_dirs (w : fs) (dir : text) : list text :=
  walker w dir (fun p => remove_dir_prefix p dir) (fun p is_dir => negb (text_eqb p []) && is_dir)%bool.

(** 70-89 (ListGlobFiles); [None]: the pattern is malformed *)
Definition list_glob_files (w : fs) (dir pattern : text) : option (list text) :=
  let p := join_path dir pattern in
  match glob (length p) w p with
  | None => None
  | Some ms => Some (map (fun m => remove_dir_prefix m dir) (filter (is_file w) ms))
  end.

(* ------------------------------------------------------------------ *)
(** ** Where the names are used *)

(** playback/playback.go:34-36 (getStreamer): the file opened for a song *)
Definition song_path (audio_dir song : text) : text := join_path audio_dir song.
(** metadata/lyrics_provider.go:32-33 (CollectLyrics) *)
Definition lyrics_path (audio_dir song : text) : text := join_path audio_dir (song ++ T ".json").
(** metadata/metadata_provider.go:30-31 *)
Definition metadata_path (audio_dir song : text) : text := join_path audio_dir song.

(** ssh/command.go:137-152 (OptionsFunc of ls) *)
Definition ls_options (w : fs) (audio_dir prefix : text) (arg : Z) : list text :=
  if negb (Z.eqb arg 0) then []
  else
    flat_map (fun sub => if has_prefix sub prefix then
                           let rest := skipn (length prefix) sub in
                           let '(d, f) := split_file rest in
                           if text_eqb d [] && text_eqb f rest then [sub ++ T "/"] else []
                         else [])%bool (list_all_sub_dirs w audio_dir).

(** server_state_commands.go:76-88 (OptionsFunc of queue) *)
Definition queue_options (w : fs) (audio_dir prefix : text) (arg : Z) : list text :=
  if negb (Z.eqb arg 0) then []
  else filter (fun s => has_prefix s prefix) (filter_songs (list_all_files w audio_dir [])).
