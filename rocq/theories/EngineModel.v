(** Model of gomill/utils.py:45-69 (sanitise_utf8), gomill/gtp_controller.py:771-888
    (Engine_description) and gomill/game_jobs.py:411-470 (check_player). *)
From Verif Require Import Base Bytes PyStr Dict SgfPropsModel GtpModel ControllerModel.

(** ** utils.py:45-69 *)

(** Python 2's UTF-8 decoder, one character: its code point, and what follows it.  [None] if the
    string (which is not empty) doesn't start with a character. *)
Definition utf8_head (s : bytes) : option (Z * bytes) :=
  match s with
  | [] => None
  | c0 :: r0 =>
      let b0 := ord c0 in
      if b0 <? 128 then Some (b0, r0)
      else if b0 <? 194 then None
      else match r0 with
      | [] => None
      | c1 :: r1 =>
          if negb (is_cont c1) then None
          else if b0 <? 224 then Some ((b0 - 192) * 64 + cont_bits c1, r1)
          else match r1 with
          | [] => None
          | c2 :: r2 =>
              if negb (is_cont c2) then None
              else if b0 <? 240 then
                let z := (b0 - 224) * 4096 + cont_bits c1 * 64 + cont_bits c2 in
                if z <? 2048 then None else Some (z, r2)
              else match r2 with
              | [] => None
              | c3 :: r3 =>
                  if negb (is_cont c3) then None
                  else
                    let z := (b0 - 240) * 262144 + cont_bits c1 * 4096 + cont_bits c2 * 64 + cont_bits c3 in
                    if (z <? 65536) || (1114111 <? z) then None else Some (z, r3)
              end
          end
      end
  end.

Section Sanitise.
(** Where there is no character, the decoder takes some bytes for one bad character; how many
    depends on the Python version: at most four of the bytes in [s], as given by [more]. *)
Variable more : bytes -> nat.

(** [s.decode("utf-8", 'replace')]; [fuel] is at least the number of bytes. *)
Fixpoint decode_replace (fuel : nat) (s : bytes) : list Z :=
  match fuel, s with
  | S f, _ :: _ =>
      match utf8_head s with
      | Some (z, r) => z :: decode_replace f r
      | None => 65533 :: decode_replace f (skipn (S (Nat.min 3 (more s))) s)
      end
  | _, _ => []
  end.

(** utils.py:45-69 [sanitise_utf8], of a byte string (None gives None).  Simplification: Python 2's
    encoder also joins two surrogates that form a pair into one character. *)
Definition sanitise_utf8 (s : bytes) : bytes :=
  match utf8_decode s with
  | Some _ => s
  | None => utf8_encode (map (fun z => if z =? 65533 then 63 else z) (decode_replace (List.length s) s))
  end.
End Sanitise.

(** ** gtp_controller.py:771-888 *)

(** [s.startswith(p)]. *)
Definition starts_with (p s : bytes) : bool := bytes_eqb (firstn (List.length p) s) p.

(** [s.partition(sep)]: the first part, if the separator was found. *)
Fixpoint before_first (sep s : bytes) : option bytes :=
  if starts_with sep s then Some []
  else match s with [] => None | c :: r => option_map (cons c) (before_first sep r) end.

(** gtp_controller.py:780-802: the attributes (raw_description isn't kept). *)
Record engine : Type := mkEngine {
  ed_raw_name : option bytes;
  ed_raw_version : option bytes;
  ed_name : option bytes;
  ed_version : option bytes;
  ed_clean : option bytes;
  ed_description : option bytes
}.

(** gtp_controller.py:816-817: removing the name from the version. *)
Definition without_name (name : option bytes) (version : bytes) : bytes :=
  match name with
  | Some n =>
      if starts_with (map lower_char n) (map lower_char version)
      then lstrip (skipn (List.length n) version) else version
  | None => version
  end.

(** gtp_controller.py:814-831 [_fix_version]. *)
Definition fix_version (name : option bytes) (version : bytes) : res bytes :=
  let v := without_name name version in
  if 64 <? Z.of_nat (List.length v) then
    match before_first (str ". Please read http:") v with
    | Some a => Ok a
    | None =>
        match before_first (str ": I'm playing") v with
        | Some a => Ok a
        | None => match split_ws v with w :: _ => Ok w | [] => Err IndexError end
        end
    end
  else Ok v.

Section Engine.
Variable sanitise : bytes -> bytes.

(** [if raw: sanitise_utf8(raw) else None]. *)
Definition sanitised (raw : option bytes) : option bytes :=
  match raw with Some (c :: r) => Some (sanitise (c :: r)) | _ => None end.

(** gtp_controller.py:794-812 [__init__]. *)
Definition new_engine (raw_name raw_version raw_description : option bytes) : res engine :=
  let name := sanitised raw_name in
  match sanitised raw_version with
  | None => Ok (mkEngine raw_name raw_version name None None (sanitised raw_description))
  | Some v =>
      do cv <- fix_version name v;
      Ok (mkEngine raw_name raw_version name (Some v) (Some cv) (sanitised raw_description))
  end.

(** gtp_controller.py:856-868 [get_short_description]. *)
Definition short_description (e : engine) : option bytes :=
  match ed_name e with
  | None => None
  | Some n =>
      match ed_clean e with
      | None => Some n
      | Some v => if 32 <? Z.of_nat (List.length v) then Some n else Some (n ++ str ":" ++ v)
      end
  end.

(** gtp_controller.py:870-887 [get_long_description]. *)
Definition long_description (e : engine) : option bytes :=
  match ed_description e with
  | Some d => Some d
  | None =>
      match ed_name e, ed_clean e with
      | None, None => None
      | None, Some v => Some (str "version " ++ v)
      | Some n, None => Some n
      | Some n, Some v => Some (n ++ str ":" ++ v)
      end
  end.

Context {X : Type}.
Variable ch : channel X.

(** [try: x = controller.do_command(command) except BadGtpResponse: x = None]. *)
Definition try_command (c : controller X) (command : bytes) : controller X * cres (option bytes) :=
  match do_command ch c command [] with
  | (c', CRet t) => (c', CRet (Some t))
  | (c', CBad _ _) => (c', CRet None)
  | (c', CChan k m) => (c', CChan k m)
  | (c', CExn e) => (c', CExn e)
  end.

Definition of_res {A} (r : res A) : cres A := match r with Ok a => CRet a | Err e => CExn e end.

(** gtp_controller.py:833-854 [from_controller]. *)
Definition from_controller (c : controller X) : controller X * cres engine :=
  match try_command c (str "name") with
  | (c1, CRet n) =>
      match try_command c1 (str "version") with
      | (c2, CRet v) =>
          match known_command ch c2 (str "gomill-describe_engine") with
          | (c3, CRet false) => (c3, of_res (new_engine n v None))
          | (c3, CRet true) =>
              match try_command c3 (str "gomill-describe_engine") with
              | (c4, CRet d) => (c4, of_res (new_engine n v d))
              | (c4, CBad m g) => (c4, CBad m g)
              | (c4, CChan k m) => (c4, CChan k m)
              | (c4, CExn e) => (c4, CExn e)
              end
          | (c3, CBad m g) => (c3, CBad m g)
          | (c3, CChan k m) => (c3, CChan k m)
          | (c3, CExn e) => (c3, CExn e)
          end
      | (c2, CBad m g) => (c2, CBad m g)
      | (c2, CChan k m) => (c2, CChan k m)
      | (c2, CExn e) => (c2, CExn e)
      end
  | (c1, CBad m g) => (c1, CBad m g)
  | (c1, CChan k m) => (c1, CChan k m)
  | (c1, CExn e) => (c1, CExn e)
  end.
End Engine.

(** ** game_jobs.py:411-470 *)

(** The attributes of game_jobs.Player (game_jobs.py:12-51) that the checks use. *)
Record checked_player : Type := mkChecked {
  cp_code : bytes;
  cp_cwd : option bytes;
  cp_aliases : dict bytes;
  cp_startup : list (bytes * list bytes)
}.

(** What check_player does: returns warnings, raises CheckFailed, or raises something else. *)
Inductive checked : Type :=
| Passed (warnings : list bytes)
| CheckFailed (msg : bytes)
| CheckError (e : exn).

Section Check.
Context {X : Type}.
Variable ch : channel X.

(** game_jobs.py:454-455, game_jobs.py:226-227: the startup commands. *)
Fixpoint startup (c : controller X) (l : list (bytes * list bytes)) : controller X * cres unit :=
  match l with
  | [] => (c, CRet tt)
  | (command, args) :: rest =>
      match do_command ch c command args with
      | (c', CRet _) => startup c' rest
      | (c', CBad m g) => (c', CBad m g)
      | (c', CChan k m) => (c', CChan k m)
      | (c', CExn e) => (c', CExn e)
      end
  end.

(** [c.do_command(...)] followed by something else. *)
Definition and_then {A B} (x : controller X * cres A) (f : controller X -> controller X * cres B) : controller X * cres B :=
  match x with
  | (c, CRet _) => f c
  | (c, CBad m g) => (c, CBad m g)
  | (c, CChan k m) => (c, CChan k m)
  | (c, CExn e) => (c, CExn e)
  end.

(** game_jobs.py:452-459: the dialogue with the engine. *)
Definition check_engine (aliases : dict bytes) (commands : list (bytes * list bytes)) (size_text komi_text : bytes)
  (c : controller X) : controller X * cres unit :=
  and_then (check_protocol_version ch (set_gtp_aliases aliases c)) (fun c1 =>
  and_then (startup c1 commands) (fun c2 =>
  and_then (do_command ch c2 (str "boardsize") [size_text]) (fun c3 =>
  and_then (do_command ch c3 (str "clear_board") []) (fun c4 =>
  and_then (do_command ch c4 (str "komi") [komi_text]) (fun c5 =>
  safe_close ch c5))))).

(** game_jobs.py:411-470 [check_player].  [isdir] says which working directories exist; [started]
    is what the constructor of Subprocess_gtp_channel does: a channel, or GtpChannelError with its
    text; [size_text] and [komi_text] are [str(board_size)] and [str(komi)].  The second component
    is the controller, if one was made.  Simplification: stderr (game_jobs.py:436-439, 464-470)
    and the environment are left out. *)
Definition check_player (isdir : bytes -> bool) (started : X + bytes) (p : checked_player) (size_text komi_text : bytes)
  : checked * option (controller X) :=
  let bad_cwd := match cp_cwd p with Some d => negb (isdir d) | None => false end in
  match cp_cwd p, bad_cwd with
  | Some d, true => (CheckFailed (str "bad working directory: " ++ d), None)
  | _, _ =>
      match started with
      | inr text => (CheckFailed (str "error starting subprocess for " ++ cp_code p ++ colon_lf ++ text), None)
      | inl x =>
          match check_engine (cp_aliases p) (cp_startup p) size_text komi_text (new_controller x (cp_code p)) with
          | (c, CRet _) => (Passed (retrieve_error_messages c), Some c)
          | (c, CBad m _) => (CheckFailed m, Some c)
          | (c, CChan _ m) => (CheckFailed m, Some c)
          | (c, CExn e) => (CheckError e, Some c)
          end
      end
  end.
End Check.
