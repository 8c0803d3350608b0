(** JSON texts (RFC 8259) as byte strings and what they denote, and what the lyrics and users
    files mean in terms of the JSON value in them.  Numbers are kept as written. *)
From Verif Require Import GoBase GoUtf8 NumberSpec AuthModel.
Local Open Scope N_scope.

Inductive jvalue : Type :=
| JNull
| JBool (b : bool)
| JNumber (literal : bytes)
| JString (s : bytes)
| JArray (l : list jvalue)
| JObject (l : list (bytes * jvalue)).

(** blank, tab, line feed, carriage return *)
Definition white (t : bytes) : Prop := Forall (fun c => c = 32 \/ c = 9 \/ c = 10 \/ c = 13) t.

(** ** Numbers *)
Definition some_digits (t : bytes) : Prop := t <> [] /\ Forall decimal_digit t.
(** -?(0|[1-9][0-9]* )(\.[0-9]+)?([eE][+-]?[0-9]+)? *)
Definition number (t : bytes) : Prop :=
  exists sg i f e, t = sg ++ i ++ f ++ e /\ (sg = [] \/ sg = [45]) /\
    (i = [48] \/ exists c ds, i = c :: ds /\ 49 <= c <= 57 /\ Forall decimal_digit ds) /\
    (f = [] \/ exists ds, f = 46 :: ds /\ some_digits ds) /\
    (e = [] \/ exists l s ds, e = l :: s ++ ds /\ (l = 101 \/ l = 69) /\ (s = [] \/ s = [43] \/ s = [45]) /\ some_digits ds).

(** ** Strings *)
Definition hex_char (c d : N) : Prop :=
  48 <= c <= 57 /\ d = c - 48 \/ 97 <= c <= 102 /\ d = c - 87 \/ 65 <= c <= 70 /\ d = c - 55.
(** \uXXXX *)
Inductive u_escape : bytes -> N -> Prop :=
| u_escape_intro c1 c2 c3 c4 d1 d2 d3 d4 : hex_char c1 d1 -> hex_char c2 d2 -> hex_char c3 d3 -> hex_char c4 d4 ->
    u_escape [92; 117; c1; c2; c3; c4] (d1 * 4096 + d2 * 256 + d3 * 16 + d4).
Definition high_surrogate (u : N) : Prop := 0xD800 <= u < 0xDC00.
Definition low_surrogate (u : N) : Prop := 0xDC00 <= u < 0xE000.
(** U+FFFD *)
Definition replacement : bytes := [0xEF; 0xBF; 0xBD].
(** quote, backslash, slash, \b \f \n \r \t *)
Definition simple_escape (c x : N) : Prop :=
  (c = 34 /\ x = 34) \/ (c = 92 /\ x = 92) \/ (c = 47 /\ x = 47) \/ (c = 98 /\ x = 8) \/ (c = 102 /\ x = 12) \/
  (c = 110 /\ x = 10) \/ (c = 114 /\ x = 13) \/ (c = 116 /\ x = 9).

(** [chars raw s]: between quotes, [raw] denotes the text [s] (in UTF-8).  What is not Unicode
    text counts as U+FFFD: bytes that are not UTF-8, escapes of single surrogates. *)
Inductive chars : bytes -> bytes -> Prop :=
| chars_end : chars [] []
| chars_ascii c t s : 32 <= c < 128 -> c <> 34 -> c <> 92 -> chars t s -> chars (c :: t) (c :: s)
| chars_rune r t s : 128 <= r -> scalar r -> chars t s -> chars (utf8_encode_rune r ++ t) (utf8_encode_rune r ++ s)
| chars_no_rune c t s : 128 <= c -> (forall r rest, scalar r -> c :: t <> utf8_encode_rune r ++ rest) ->
    chars t s -> chars (c :: t) (replacement ++ s)
| chars_simple c x t s : simple_escape c x -> chars t s -> chars (92 :: c :: t) (x :: s)
| chars_escape e u t s : u_escape e u -> scalar u -> chars t s -> chars (e ++ t) (utf8_encode_rune u ++ s)
| chars_pair e e' u u' t s : u_escape e u -> u_escape e' u' -> high_surrogate u -> low_surrogate u' -> chars t s ->
    chars (e ++ e' ++ t) (utf8_encode_rune ((u - 0xD800) * 1024 + (u' - 0xDC00) + 0x10000) ++ s)
| chars_lone e u t s : u_escape e u -> high_surrogate u \/ low_surrogate u ->
    (forall e' u' t', high_surrogate u -> t = e' ++ t' -> u_escape e' u' -> ~ low_surrogate u') ->
    chars t s -> chars (e ++ t) (replacement ++ s).

(** ** Values *)
Inductive json : bytes -> jvalue -> Prop :=
| json_null : json (T "null") JNull
| json_true : json (T "true") (JBool true)
| json_false : json (T "false") (JBool false)
| json_number t : number t -> json t (JNumber t)
| json_string raw s : chars raw s -> json (34 :: raw ++ [34]) (JString s)
| json_empty_array w : white w -> json (91 :: w ++ [93]) (JArray [])
| json_array t l : elements t l -> json (91 :: t ++ [93]) (JArray l)
| json_empty_object w : white w -> json (123 :: w ++ [125]) (JObject [])
| json_object t l : members t l -> json (123 :: t ++ [125]) (JObject l)
with elements : bytes -> list jvalue -> Prop :=
| elements_one w t v w' : white w -> json t v -> white w' -> elements (w ++ t ++ w') [v]
| elements_more w t v w' t' l : white w -> json t v -> white w' -> elements t' l ->
    elements (w ++ t ++ w' ++ 44 :: t') (v :: l)
with members : bytes -> list (bytes * jvalue) -> Prop :=
| members_one w raw k w1 w2 t v w' : white w -> chars raw k -> white w1 -> white w2 -> json t v -> white w' ->
    members (w ++ (34 :: raw ++ [34]) ++ w1 ++ 58 :: w2 ++ t ++ w') [(k, v)]
| members_more w raw k w1 w2 t v w' t' l : white w -> chars raw k -> white w1 -> white w2 -> json t v -> white w' ->
    members t' l ->
    members (w ++ (34 :: raw ++ [34]) ++ w1 ++ 58 :: w2 ++ t ++ w' ++ 44 :: t') ((k, v) :: l).

(** The JSON value at the start of a file; what follows it does not matter. *)
Definition file_value (file : bytes) (v : jvalue) : Prop :=
  exists w t rest, file = w ++ t ++ rest /\ white w /\ json t v.

(** ** Names of members: letters in either case; also U+017F for s and U+212A for k *)
Inductive named : bytes -> bytes -> Prop :=
| named_end : named [] []
| named_same c n k : c < 128 -> named n k -> named (c :: n) (c :: k)
| named_case c c' n k : 97 <= c <= 122 /\ c' = c - 32 \/ 65 <= c <= 90 /\ c' = c + 32 -> named n k -> named (c :: n) (c' :: k)
| named_s c n k : c = 115 \/ c = 83 -> named n k -> named (c :: n) (0xC5 :: 0xBF :: k)
| named_k c n k : c = 107 \/ c = 75 -> named n k -> named (c :: n) (0xE2 :: 0x84 :: 0xAA :: k).

(** ** The lyrics file: an array of lines, a line an array of objects with a timestamp (an
    integer) and a caption (a text); further members are ignored, of several members with the
    same name the last one counts, and null is the same as leaving out. *)
Definition all_are (P : jvalue -> Prop) (name : bytes) (l : list (bytes * jvalue)) : Prop :=
  forall k v, In (k, v) l -> named name k -> v = JNull \/ P v.
(** the last member of the name that is not null *)
Definition last_is (name : bytes) (l : list (bytes * jvalue)) (v : jvalue) : Prop :=
  exists before k after, l = before ++ (k, v) :: after /\ named name k /\ v <> JNull /\
    forall k' v', In (k', v') after -> named name k' -> v' = JNull.
Definition none_is (name : bytes) (l : list (bytes * jvalue)) : Prop :=
  forall k v, In (k, v) l -> named name k -> v = JNull.

Definition integer (v : jvalue) (z : Z) : Prop := exists t, v = JNumber t /\ reads t z.

Definition atom_denotes (v : jvalue) (ts : Z) (caption : bytes) : Prop :=
  v = JNull /\ ts = 0%Z /\ caption = [] \/
  exists l, v = JObject l /\
    all_are (fun x => exists z, integer x z) (T "timestamp") l /\ all_are (fun x => exists s, x = JString s) (T "caption") l /\
    ((exists x, last_is (T "timestamp") l x /\ integer x ts) \/ none_is (T "timestamp") l /\ ts = 0%Z) /\
    (last_is (T "caption") l (JString caption) \/ none_is (T "caption") l /\ caption = []).
Definition line_denotes (v : jvalue) (line : list (Z * bytes)) : Prop :=
  v = JNull /\ line = [] \/ exists l, v = JArray l /\ Forall2 (fun x a => atom_denotes x (fst a) (snd a)) l line.
Definition lyrics_denote (v : jvalue) (ly : list (list (Z * bytes))) : Prop :=
  v = JNull /\ ly = [] \/ exists l, v = JArray l /\ Forall2 line_denotes l ly.

(** ** The users file: an object with an object for each user, with a password (a text) and a
    pubKey (a text in base 64, or the bytes as numbers). *)

(** RFC 4648: A-Z a-z 0-9 + / *)
Definition b64_char (c d : N) : Prop :=
  65 <= c <= 90 /\ d = c - 65 \/ 97 <= c <= 122 /\ d = c - 71 \/ 48 <= c <= 57 /\ d = c + 4 \/
  c = 43 /\ d = 62 \/ c = 47 /\ d = 63.
(** Four characters for three bytes; two and three characters, padded with =, for the last one
    or two (the bits left over do not matter). *)
Inductive b64 : bytes -> bytes -> Prop :=
| b64_end : b64 [] []
| b64_quad c1 c2 c3 c4 d1 d2 d3 d4 b1 b2 b3 t s :
    b64_char c1 d1 -> b64_char c2 d2 -> b64_char c3 d3 -> b64_char c4 d4 -> b1 < 256 -> b2 < 256 -> b3 < 256 ->
    b1 * 65536 + b2 * 256 + b3 = d1 * 262144 + d2 * 4096 + d3 * 64 + d4 ->
    b64 t s -> b64 (c1 :: c2 :: c3 :: c4 :: t) (b1 :: b2 :: b3 :: s)
| b64_three c1 c2 c3 d1 d2 d3 b1 b2 x :
    b64_char c1 d1 -> b64_char c2 d2 -> b64_char c3 d3 -> b1 < 256 -> b2 < 256 -> x < 4 ->
    b1 * 1024 + b2 * 4 + x = d1 * 4096 + d2 * 64 + d3 -> b64 [c1; c2; c3; 61] [b1; b2]
| b64_two c1 c2 d1 d2 b1 x :
    b64_char c1 d1 -> b64_char c2 d2 -> b1 < 256 -> x < 16 -> b1 * 16 + x = d1 * 64 + d2 -> b64 [c1; c2; 61; 61] [b1].
(** line breaks do not count *)
Definition base64_text (t s : bytes) : Prop := b64 (filter (fun c => negb ((c =? 10) || (c =? 13))) t) s.

(** the last member of the name, null or not *)
Definition final_is (name : bytes) (l : list (bytes * jvalue)) (v : jvalue) : Prop :=
  exists before k after, l = before ++ (k, v) :: after /\ named name k /\ forall k' v', In (k', v') after -> ~ named name k'.
Definition absent (name : bytes) (l : list (bytes * jvalue)) : Prop := forall k v, In (k, v) l -> ~ named name k.
Definition byte_denotes (v : jvalue) (b : N) : Prop :=
  v = JNull /\ b = 0 \/ exists t, v = JNumber t /\ some_digits t /\ value_of t = Z.of_N b /\ b < 256.
Definition is_key (v : jvalue) (key : bytes) : Prop :=
  (exists s, v = JString s /\ base64_text s key) \/ (exists l, v = JArray l /\ Forall2 byte_denotes l key).

Definition user_denotes (v : jvalue) (a : user_auth) : Prop :=
  v = JNull /\ u_password a = [] /\ u_pubkey a = [] \/
  exists l, v = JObject l /\
    all_are (fun x => exists s, x = JString s) (T "password") l /\ all_are (fun x => exists k, is_key x k) (T "pubKey") l /\
    (last_is (T "password") l (JString (u_password a)) \/ none_is (T "password") l /\ u_password a = []) /\
    ((exists x, final_is (T "pubKey") l x /\ (is_key x (u_pubkey a) \/ x = JNull /\ u_pubkey a = [])) \/
     absent (T "pubKey") l /\ u_pubkey a = []).
Definition users_denote (v : jvalue) (users : list (bytes * user_auth)) : Prop :=
  v = JNull /\ users = [] \/
  exists l, v = JObject l /\ Forall2 (fun m u => fst m = fst u /\ user_denotes (snd m) (snd u)) l users.
