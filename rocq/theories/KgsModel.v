(** Model of gomill_examples/kgs_proxy.py: a proxy for use with kgsGtp, which can save the games. *)
From Verif Require Import Base Bytes PyStr Dict CommonModel GtpModel ControllerModel ProxyModel RingFilesModel.
From Verif Require EngineModel.

(** A --filename-template: what [template % i] is for each number; None: an exception.  (Python's formatting
    isn't modelled, but any template is such a function.) *)
Definition template : Type := Z -> option bytes.

(** kgs_proxy.py:37: "%04d.sgf". *)
Definition default_template : template := fun i => Some (zfill 4 (str_int i) ++ str ".sgf").

(** kgs_proxy.py:25-31: the options (optparse isn't modelled). *)
Record options : Type := mkOptions {
  o_sgf_dir : option bytes;
  o_template : option template
}.

(** kgs_proxy.py:35-50: the attributes set by [__init__]. *)
Record config : Type := mkConfig {
  kc_command : list bytes;
  kc_template : template;
  kc_save : option bytes                  (* sgf_dir if do_savesgf *)
}.

(** How the program ends before there is a session. *)
Inductive ending : Type :=
| Usage_error (msg : bytes)               (* optparse: status 2 *)
| Exit_message (msg : bytes)              (* sys.exit(msg): status 1 *)
| Unhandled (e : exn).                    (* a traceback: status 1 *)

(** kgs_proxy.py:33-50, 104-107.  [isdir] is os.path.isdir. *)
Definition init (isdir : bytes -> bool) (o : options) (args : list bytes) : config + ending :=
  match args with
  | [] => inr (Usage_error (str "must specify a command"))
  | _ =>
      let t := match o_template o with
               | Some t => match t 3 with Some _ => t | None => default_template end
               | None => default_template
               end in
      match o_sgf_dir o with
      | None | Some [] => inl (mkConfig args t None)
      | Some d =>
          if isdir d then inl (mkConfig args t (Some d))
          else inr (Exit_message (str "kgs_proxy: can't find save game directory " ++ d))
      end
  end.

(** kgs_proxy.py:109-115: the loop of [choose_filename], from [i] on, at most [n] more times. *)
Fixpoint choose_from (t : template) (existing : list bytes) (i : Z) (n : nat) : res bytes :=
  match n with
  | O => Err standard_error
  | S n' =>
      match t i with
      | None => Err TypeError
      | Some filename => if existsb (bytes_eqb filename) existing then choose_from t existing (i + 1) n' else Ok filename
      end
  end.
(** kgs_proxy.py:109-115. *)
Definition choose_filename (t : template) (existing : list bytes) : res bytes :=
  choose_from t existing 0 (Z.to_nat 10000).

(** kgs_proxy.py:123-124 [escape_for_savesgf]: [s.replace("\\", "\\\\").replace(" ", "\\ ")]. *)
Definition replace_char (c : ascii) (r : bytes) (s : bytes) : bytes :=
  List.concat (map (fun x => if ceqb x c then r else [x]) s).
Definition escape_for_savesgf (s : bytes) : bytes :=
  replace_char char_sp [char_bs; char_sp] (replace_char char_bs [char_bs; char_bs] s).

(** kgs_proxy.py:78-86 [shorten_version]. *)
Definition shorten_version (name version : bytes) : bytes :=
  let v := EngineModel.without_name (Some name) version in
  let v := match EngineModel.before_first (str ". Please read http:") v with Some a => a | None => v end in
  rstrip (firstn 32 v).

(** What a Kgs_proxy keeps during a session (kgs_proxy.py:67-69, 88), the number of calls of os.listdir so
    far, and the lines written to stderr by [log] (kgs_proxy.py:52-53). *)
Record kgs : Type := mkKgs {
  k_colour : option colour;
  k_name : option bytes;
  k_listings : nat;
  k_log : list bytes
}.
Definition new_kgs : kgs := mkKgs None None O [].
Definition with_colour (c : colour) (k : kgs) : kgs := mkKgs (Some c) (k_name k) (k_listings k) (k_log k).
Definition with_name (n : option bytes) (k : kgs) : kgs := mkKgs (k_colour k) n (k_listings k) (k_log k).
Definition listed (k : kgs) : kgs := mkKgs (k_colour k) (k_name k) (S (k_listings k)) (k_log k).
Definition logged (s : bytes) (k : kgs) : kgs := mkKgs (k_colour k) (k_name k) (k_listings k) (k_log k ++ [s]).

(** [colour.upper()]. *)
Definition colour_letter (c : colour) : bytes := match c with Black => str "B" | White => str "W" end.

Section Kgs.
Context {X : Type}.
Variable ch : channel X.
(** The text of a traceback: for an exception, and for a BadGtpResponse and a BackEndError (by their texts). *)
Variable traceback : exn -> bytes.
Variable traceback_bad traceback_back : bytes -> bytes.
(** What the n-th call of os.listdir gives (the directory may change all the time). *)
Variable listdir : nat -> list bytes + exn.
Variable cfg : config.

Notation P := (proxy X kgs).
Definition map_user (f : kgs -> kgs) (p : P) : P := mkProxy (px_back p) (f (px_user p)).

(** kgs_proxy.py:97-102 [handle_genmove].  Failure responses and low-level errors come from pass_command, so
    that they aren't GtpErrors. *)
Definition handle_genmove (p : P) (args : list bytes) : P * gres (option bytes) :=
  match args with
  | [] => (p, report_bad_arguments)
  | a :: _ =>
      match interpret_colour a with
      | GOk c =>
          let (p', r) := pass_command ch (map_user (with_colour c) p) (str "genmove") args in
          (p', match r with
               | PRet t => GOk (Some t)
               | PBad m => GRaise (traceback_bad m)
               | PBack m _ => GRaise (traceback_back m)
               | PChan _ m => GRaise (traceback_back m)       (* never happens *)
               | PRaise e => GRaise (traceback e)
               end)
      | GError m => (p, GError m)
      | GFatal m => (p, GFatal m) | GQuit m => (p, GQuit m) | GRaise m => (p, GRaise m)   (* never happen *)
      end
  end.

(** kgs_proxy.py:130-133: the arguments of gomill-savesgf. *)
Definition save_arguments (k : kgs) (pathname : bytes) : list bytes :=
  pathname :: match k_colour k, k_name k with
              | Some c, Some n => [str "P" ++ colour_letter c ++ str "=" ++ escape_for_savesgf n]
              | _, _ => []
              end.

(** kgs_proxy.py:117-138 [handle_game_over].  (GtpFatalError is a GtpError.) *)
Definition handle_game_over (p : P) (args : list bytes) : P * gres (option bytes) :=
  match kc_save cfg with
  | None => (p, GOk None)
  | Some dir =>
      let p1 := map_user listed p in
      match listdir (k_listings (px_user p)) with
      | inr e => (p1, GRaise (traceback e))
      | inl existing =>
          match choose_filename (kc_template cfg) existing with
          | Err e => (p1, GRaise (traceback e))
          | Ok filename =>
              let pathname := join_path dir filename in
              let p2 := map_user (logged (str "kgs_proxy: saving game record to " ++ pathname)) p1 in
              let (p3, r) := handle_command ch traceback p2 (str "gomill-savesgf") (save_arguments (px_user p2) pathname) in
              match r with
              | GOk _ => (p3, GOk None)
              | GError m | GFatal m => (map_user (logged (str "error: " ++ m)) p3, GOk None)
              | GQuit m => (p3, GQuit m)                      (* never happens *)
              | GRaise m => (p3, GRaise m)
              end
          end
      end
  end.

(** kgs_proxy.py:77-95 [initialise_name]. *)
Definition initialise_name (p : P) : P * pres unit :=
  let (p1, r) := pass_command ch (map_user (with_name None) p) (str "name") [] in
  match r with
  | PRet name =>
      let p1 := map_user (with_name (Some name)) p1 in
      let (p2, r) := pass_command ch p1 (str "version") [] in
      match r with
      | PRet version => (map_user (with_name (Some (name ++ str ":" ++ shorten_version name version))) p2, PRet tt)
      | PBad _ => (p2, PRet tt)
      | PBack m c => (p2, PBack m c) | PChan k m => (p2, PChan k m) | PRaise e => (p2, PRaise e)
      end
  | PBad _ => (p1, PRet tt)
  | PBack m c => (p1, PBack m c) | PChan k m => (p1, PChan k m) | PRaise e => (p1, PRaise e)
  end.

(** kgs_proxy.py:59-62. *)
Definition add_kgs_commands (e : engine P) : engine P :=
  add_command (add_command e (str "genmove") (User handle_genmove)) (str "kgs-game_over") (User handle_game_over).

(** How a BackEndError ends the program (kgs_proxy.py:70-71), and another exception. *)
Definition fails {A} (r : pres A) : ending :=
  match r with
  | PBack m _ => Exit_message (str "kgs_proxy: " ++ m)
  | PRaise e => Unhandled e
  | _ => Unhandled standard_error                             (* never happens *)
  end.

(** kgs_proxy.py:56-71: the first part of [run]: the engine with which the session is run, or how the
    program ends. *)
Definition start (launched : X + bytes) : P * (engine P + ending) :=
  let (p1, r) := set_back_end_subprocess ch traceback (new_proxy new_kgs) launched in
  match r with
  | PRet e =>
      let '(p2, r) := match kc_save cfg with
                      | None => (p1, PRet true)
                      | Some _ => back_end_has_command ch p1 (str "gomill-savesgf")
                      end in
      match r with
      | PRet true =>
          let (p3, r) := initialise_name p2 in
          match r with
          | PRet _ => (p3, inl (add_kgs_commands e))
          | r => (p3, inr (fails r))
          end
      | PRet false => (p2, inr (Exit_message (str "kgs_proxy: back end doesn't support gomill-savesgf")))
      | r => (p2, inr (fails r))
      end
  | r => (p1, inr (fails r))
  end.

End Kgs.
