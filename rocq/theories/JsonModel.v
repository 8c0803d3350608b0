(** encoding/json of Go 1.14 (go.mod) as metadata/lyrics_provider.go:41-45 and
    ssh/ssh.go:27-33 use it: Decoder.Decode of the first value of a file into
    [][]LyricsAtom and map[string]UserAuth.
    Simplifications: the scanner (scanner.go, a state machine with a stack) is a recursive
    parser that yields the value, which decode.go then stores; decode.go goes on after a type
    error and reports the first one in the end, here the result is None (both callers drop
    the value then).  A null inside a pubKey array counts as 0 (Go keeps what an earlier
    pubKey member of the same user left there). *)
From Verif Require Import GoBase GoFmt GoUtf8 AuthModel JsonSpec.
Local Open Scope N_scope.
Local Open Scope bool_scope.

(** scanner.go isSpace *)
Definition is_space (c : N) : bool := (c =? 32) || (c =? 9) || (c =? 10) || (c =? 13).
Fixpoint skip_ws (b : bytes) : bytes :=
  match b with c :: r => if is_space c then skip_ws r else b | [] => [] end.

(** scanner.go stateNeg .. stateE0 *)
Definition is_dec (c : N) : bool := between 48 57 c.
Fixpoint take_digits (b : bytes) : bytes * bytes :=
  match b with
  | c :: r => if is_dec c then let '(d, r') := take_digits r in (c :: d, r') else ([], b)
  | [] => ([], [])
  end.
Definition get_int (b : bytes) : option (bytes * bytes) :=
  match b with
  | c :: r => if c =? 48 then Some ([c], r)
              else if between 49 57 c then let '(d, r') := take_digits r in Some (c :: d, r') else None
  | [] => None
  end.
Definition get_frac (b : bytes) : option (bytes * bytes) :=
  match b with
  | c :: r => if c =? 46 then match take_digits r with ([], _) => None | (d, r') => Some (c :: d, r') end else Some ([], b)
  | [] => Some ([], b)
  end.
Definition get_exp (b : bytes) : option (bytes * bytes) :=
  match b with
  | c :: r =>
      if (c =? 101) || (c =? 69) then
        let '(sg, r1) := match r with x :: r1 => if (x =? 43) || (x =? 45) then ([x], r1) else ([], r) | [] => ([], r) end in
        match take_digits r1 with ([], _) => None | (d, r') => Some (c :: sg ++ d, r') end
      else Some ([], b)
  | [] => Some ([], b)
  end.
Definition get_number (b : bytes) : option (bytes * bytes) :=
  let '(sg, r0) := match b with c :: r => if c =? 45 then ([c], r) else ([], b) | [] => ([], b) end in
  match get_int r0 with
  | None => None
  | Some (i, r1) =>
      match get_frac r1 with
      | None => None
      | Some (f, r2) => match get_exp r2 with None => None | Some (e, r3) => Some (sg ++ i ++ f ++ e, r3) end
      end
  end.

(** decode.go getu4, without the leading backslash and u *)
Definition hexval (c : N) : option N :=
  if between 48 57 c then Some (c - 48) else if between 97 102 c then Some (c - 87)
  else if between 65 70 c then Some (c - 55) else None.
Definition get_u4 (b : bytes) : option (N * bytes) :=
  match b with
  | c1 :: c2 :: c3 :: c4 :: r =>
      match hexval c1, hexval c2, hexval c3, hexval c4 with
      | Some d1, Some d2, Some d3, Some d4 => Some (d1 * 4096 + d2 * 256 + d3 * 16 + d4, r)
      | _, _, _, _ => None
      end
  | _ => None
  end.
Definition simple (c : N) : option N :=
  if c =? 34 then Some 34 else if c =? 92 then Some 92 else if c =? 47 then Some 47
  else if c =? 98 then Some 8 else if c =? 102 then Some 12 else if c =? 110 then Some 10
  else if c =? 114 then Some 13 else if c =? 116 then Some 9 else None.
(** utf16.DecodeRune of this escape and the one that follows, if any *)
Definition surrogate (u : N) : bool := between 0xD800 0xDFFF u.
Definition get_pair (u : N) (b : bytes) : option (N * bytes) :=
  match b with
  | x :: y :: r =>
      if (x =? 92) && (y =? 117) then
        match get_u4 r with
        | Some (u', r') => if between 0xD800 0xDBFF u && between 0xDC00 0xDFFF u'
                           then Some ((u - 0xD800) * 1024 + (u' - 0xDC00) + 0x10000, r') else None
        | None => None
        end
      else None
  | _ => None
  end.
(** utf8.DecodeRune: the bytes of the encoding at the start, if it is one *)
Definition rune_len (c : N) : nat := if c <? 0xE0 then 2 else if c <? 0xF0 then 3 else 4.
Definition get_rune (b : bytes) : option (bytes * bytes) :=
  match b with
  | c :: _ => let n := rune_len c in
              if (n <=? length b)%nat && utf8_valid (firstn n b) then Some (firstn n b, skipn n b) else None
  | [] => None
  end.

(** decode.go unquoteBytes up to the closing quote (and the checks of scanner.go stateInString);
    [fuel] at least the length *)
Fixpoint get_chars (fuel : nat) (b : bytes) : option (bytes * bytes) :=
  let andthen x o := match o with Some (s, r) => Some (x ++ s, r) | None => None end in
  match fuel, b with
  | S f, c :: r =>
      if c =? 34 then Some ([], r)
      else if c =? 92 then
        match r with
        | e :: r' =>
            if e =? 117 then
              match get_u4 r' with
              | None => None
              | Some (u, r2) =>
                  if surrogate u then
                    match get_pair u r2 with
                    | Some (p, r3) => andthen (utf8_encode_rune p) (get_chars f r3)
                    | None => andthen replacement (get_chars f r2)
                    end
                  else andthen (utf8_encode_rune u) (get_chars f r2)
              end
            else match simple e with Some x => andthen [x] (get_chars f r') | None => None end
        | [] => None
        end
      else if c <? 32 then None
      else if c <? 128 then andthen [c] (get_chars f r)
      else match get_rune b with
           | Some (x, r') => andthen x (get_chars f r')
           | None => andthen replacement (get_chars f r)
           end
  | _, _ => None
  end.

(** encoding/json, scanner.go: true, false, null *)
Definition literal (name : bytes) (v : jvalue) (b : bytes) : option (jvalue * bytes) :=
  if text_eqb (firstn (length name) b) name then Some (v, skipn (length name) b) else None.

(** scanner.go: one value, the elements of an array up to the bracket, the members of an
    object up to the brace *)
Fixpoint parse (fuel : nat) (b : bytes) : option (jvalue * bytes) :=
  match fuel, b with
  | S f, c :: r =>
      if c =? 34 then match get_chars (length r) r with Some (s, r') => Some (JString s, r') | None => None end
      else if c =? 91 then
        match skip_ws r with
        | [] => None
        | x :: r' => if x =? 93 then Some (JArray [], r')
                     else match parse_elements f r with Some (l, r2) => Some (JArray l, r2) | None => None end
        end
      else if c =? 123 then
        match skip_ws r with
        | [] => None
        | x :: r' => if x =? 125 then Some (JObject [], r')
                     else match parse_members f r with Some (l, r2) => Some (JObject l, r2) | None => None end
        end
      else if c =? 110 then literal (T "null") JNull b
      else if c =? 116 then literal (T "true") (JBool true) b
      else if c =? 102 then literal (T "false") (JBool false) b
      else match get_number b with Some (t, r') => Some (JNumber t, r') | None => None end
  | _, _ => None
  end
with parse_elements (fuel : nat) (b : bytes) : option (list jvalue * bytes) :=
  match fuel with
  | O => None
  | S f =>
      match parse f (skip_ws b) with
      | None => None
      | Some (v, r) =>
          match skip_ws r with
          | x :: r' =>
              if x =? 44 then match parse_elements f r' with Some (l, r2) => Some (v :: l, r2) | None => None end
              else if x =? 93 then Some ([v], r') else None
          | [] => None
          end
      end
  end
with parse_members (fuel : nat) (b : bytes) : option (list (bytes * jvalue) * bytes) :=
  match fuel, skip_ws b with
  | S f, q :: r =>
      if q =? 34 then
        match get_chars (length r) r with
        | None => None
        | Some (k, r1) =>
            match skip_ws r1 with
            | x :: r2 =>
                if x =? 58 then
                  match parse f (skip_ws r2) with
                  | None => None
                  | Some (v, r3) =>
                      match skip_ws r3 with
                      | y :: r4 =>
                          if y =? 44 then match parse_members f r4 with Some (l, r5) => Some ((k, v) :: l, r5) | None => None end
                          else if y =? 125 then Some ([(k, v)], r4) else None
                      | [] => None
                      end
                  end
                else None
            | [] => None
            end
        end
      else None
  | _, _ => None
  end.

(** stream.go Decoder.Decode: the first value; what follows it is not looked at *)
Definition parse_file (file : bytes) : option jvalue :=
  match parse (2 * length file + 2) (skip_ws file) with Some (v, _) => Some v | None => None end.

(** fold.go equalFoldRight / simpleLetterEqualFold, for names of letters *)
Fixpoint fold_eq (name key : bytes) : bool :=
  match name with
  | [] => match key with [] => true | _ => false end
  | c :: n =>
      match key with
      | [] => false
      | x :: k =>
          if x <? 128 then (N.land c 0xDF =? N.land x 0xDF) && fold_eq n k
          else if (N.land c 0xDF =? 83) then         (* S *)
            match key with x :: y :: k' => (x =? 0xC5) && (y =? 0xBF) && fold_eq n k' | _ => false end
          else if (N.land c 0xDF =? 75) then         (* K *)
            match key with x :: y :: z :: k' => (x =? 0xE2) && (y =? 0x84) && (z =? 0xAA) && fold_eq n k' | _ => false end
          else false
      end
  end.

(** all or nothing *)
Fixpoint map_opt {A B} (f : A -> option B) (l : list A) : option (list B) :=
  match l with
  | [] => Some []
  | x :: r => match f x, map_opt f r with Some y, Some s => Some (y :: s) | _, _ => None end
  end.

(** decode.go object, for structs: the members in turn, each stored into the field it names *)
Fixpoint store_members {A} (store : bytes -> jvalue -> A -> option A) (l : list (bytes * jvalue)) (a : A) : option A :=
  match l with
  | [] => Some a
  | (k, v) :: r => match store k v a with Some a' => store_members store r a' | None => None end
  end.

(** lyrics_provider.go:12-18 *)
Definition store_atom (k : bytes) (v : jvalue) (a : Z * bytes) : option (Z * bytes) :=
  if fold_eq (T "timestamp") k then
    match v with
    | JNull => Some a
    | JNumber t => match atoi t with Some z => Some (z, snd a) | None => None end     (* strconv.ParseInt(s, 10, 64) *)
    | _ => None
    end
  else if fold_eq (T "caption") k then
    match v with JNull => Some a | JString s => Some (fst a, s) | _ => None end
  else Some a.
Definition decode_atom (v : jvalue) : option (Z * bytes) :=
  match v with JNull => Some (0%Z, []) | JObject l => store_members store_atom l (0%Z, []) | _ => None end.
Definition decode_line (v : jvalue) : option (list (Z * bytes)) :=
  match v with JNull => Some [] | JArray l => map_opt decode_atom l | _ => None end.
Definition decode_lyrics (v : jvalue) : option (list (list (Z * bytes))) :=
  match v with JNull => Some [] | JArray l => map_opt decode_line l | _ => None end.

(** lyrics_provider.go:32-48 (CollectLyrics); [content]: the file if it is one and can be opened *)
Definition collect_lyrics (content : option bytes) : list (list (Z * bytes)) :=
  match content with
  | None => []
  | Some file => match parse_file file with
                 | Some v => match decode_lyrics v with Some l => l | None => [] end
                 | None => []
                 end
  end.

(** encoding/base64 StdEncoding.Decode (decodeQuantum; line breaks are skipped wherever they are) *)
Definition b64val (c : N) : option N :=
  if between 65 90 c then Some (c - 65) else if between 97 122 c then Some (c - 71)
  else if between 48 57 c then Some (c + 4) else if c =? 43 then Some 62 else if c =? 47 then Some 63 else None.
Fixpoint b64_quanta (b : bytes) : option bytes :=
  match b with
  | [] => Some []
  | c1 :: c2 :: c3 :: c4 :: r =>
      match b64val c1, b64val c2 with
      | Some d1, Some d2 =>
          if c3 =? 61 then                                        (* two characters and padding *)
            if (c4 =? 61) && match r with [] => true | _ => false end then Some [d1 * 4 + d2 / 16] else None
          else
            match b64val c3 with
            | None => None
            | Some d3 =>
                if c4 =? 61 then
                  match r with [] => Some [d1 * 4 + d2 / 16; (d2 mod 16) * 16 + d3 / 4] | _ => None end
                else
                  match b64val c4, b64_quanta r with
                  | Some d4, Some s => Some (d1 * 4 + d2 / 16 :: (d2 mod 16) * 16 + d3 / 4 :: (d3 mod 4) * 64 + d4 :: s)
                  | _, _ => None
                  end
            end
      | _, _ => None
      end
  | _ => None
  end.
(** encoding/base64, Decode of StdEncoding: CR and LF are skipped *)
Definition base64 (t : bytes) : option bytes := b64_quanta (filter (fun c => negb ((c =? 10) || (c =? 13))) t).

(** a number stored into a uint8 *)
Definition decode_byte (v : jvalue) : option N :=
  match v with
  | JNull => Some 0
  | JNumber t => if forallb is_dec t then
                   match atoi t with Some z => if (z <? 256)%Z then Some (Z.to_N z) else None | None => None end
                 else None
  | _ => None
  end.
(** ssh.go:16-19 *)
Definition store_user (k : bytes) (v : jvalue) (a : user_auth) : option user_auth :=
  if fold_eq (T "password") k then
    match v with JNull => Some a | JString s => Some {| u_password := s; u_pubkey := u_pubkey a |} | _ => None end
  else if fold_eq (T "pubKey") k then
    let set o := match o with Some b => Some {| u_password := u_password a; u_pubkey := b |} | None => None end in
    match v with
    | JNull => set (Some [])
    | JString s => set (base64 s)
    | JArray l => set (map_opt decode_byte l)
    | _ => None
    end
  else Some a.
Definition no_auth : user_auth := {| u_password := []; u_pubkey := [] |}.
Definition decode_user (v : jvalue) : option user_auth :=
  match v with JNull => Some no_auth | JObject l => store_members store_user l no_auth | _ => None end.
(** decode.go object, for maps: a fresh element for each member; later ones replace earlier ones
    ([users] is read through AuthModel.lookup, the last entry counts) *)
Definition decode_users (v : jvalue) : option (list (bytes * user_auth)) :=
  match v with
  | JNull => Some []
  | JObject l => map_opt (fun m => match decode_user (snd m) with Some a => Some (fst m, a) | None => None end) l
  | _ => None
  end.

(** ssh.go:25-35 (ReadUsersFile); None: an error, and the server ends (cmd/music-sync-server/
    main.go:95-98) *)
Definition read_users (content : option bytes) : option (list (bytes * user_auth)) :=
  match content with
  | None => None
  | Some file => match parse_file file with Some v => decode_users v | None => None end
  end.
