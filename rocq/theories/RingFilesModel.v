(** Model of the files of a competition in gomill/ringmasters.py: their pathnames, deleting
    them, and finding the competition type in the control file. *)
From Verif Require Import Base Bytes PyStr Dict RingModel.

(** ** posixpath (Python 2) *)

(** The part of [s] up to its last [c], and what follows ([rfind] and slicing). *)
Fixpoint cut_last (c : ascii) (s : bytes) : option (bytes * bytes) :=
  match s with
  | [] => None
  | x :: r => match cut_last c r with
              | Some (a, b) => Some (x :: a, b)
              | None => if ceqb x c then Some ([x], r) else None
              end
  end.

Definition slash : ascii := "/"%char.
Definition dot : ascii := "."%char.

(** [s.rstrip('/')]. *)
Fixpoint strip_slashes (s : bytes) : bytes :=
  match s with [] => [] | c :: r => if ceqb c slash then strip_slashes r else s end.
Definition rstrip_slashes (s : bytes) : bytes := rev (strip_slashes (rev s)).

(** [os.path.split]. *)
Definition os_split (p : bytes) : bytes * bytes :=
  match cut_last slash p with
  | None => ([], p)
  | Some (h, t) => (if forallb (fun c => ceqb c slash) h then h else rstrip_slashes h, t)
  end.

(** [os.path.splitext] of a name with no slash: leading dots start no extension. *)
Definition splitext (name : bytes) : bytes * bytes :=
  match cut_last dot name with
  | None => (name, [])
  | Some (h, t) =>
      if forallb (fun c => ceqb c dot) (removelast h) then (name, []) else (removelast h, dot :: t)
  end.

(** [os.path.join(a, b)]. *)
Definition join_path (a b : bytes) : bytes :=
  match b with
  | "/"%char :: _ => b
  | _ => match rev a with [] => b | c :: _ => if ceqb c slash then a ++ b else a ++ slash :: b end
  end.

(** ** ringmasters.py:77-116 [__init__] *)

Definition forbidden : list bytes :=
  [str ".log"; str ".status"; str ".cmd"; str ".hist"; str ".report"; str ".games"; str ".void"; str ".gtplogs"].

Record pathnames : Type := mkPN {
  p_control : bytes;
  p_base : bytes;
  p_code : bytes;
  p_log : bytes;
  p_status : bytes;
  p_command : bytes;
  p_history : bytes;
  p_report : bytes;
  p_sgf_dir : bytes;
  p_void_dir : bytes;
  p_gtplog_dir : bytes
}.

Definition competition_files (control : bytes) : res pathnames :=
  let '(base, name) := os_split control in
  let '(code, ext) := splitext name in
  if existsb (bytes_eqb ext) forbidden then Err RingmasterError
  else
    let stem := join_path base code in
    Ok (mkPN control base code
          (stem ++ str ".log") (stem ++ str ".status") (stem ++ str ".cmd") (stem ++ str ".hist")
          (stem ++ str ".report") (stem ++ str ".games") (stem ++ str ".void") (stem ++ str ".gtplogs")).

(** ** ringmasters.py:727-754 [delete_state_and_output] *)

Inductive entry : Type := File (contents : bytes) | Dir.

(** What there is under each pathname. *)
Definition fs : Type := bytes -> option entry.

(** [q] is inside the directory [p]. *)
Fixpoint has_prefix (p s : bytes) : bool :=
  match p, s with
  | [], _ => true
  | a :: p', b :: s' => ceqb a b && has_prefix p' s'
  | _ :: _, [] => false
  end.
Definition inside (p q : bytes) : bool := has_prefix (p ++ [slash]) q.

(** [keep q]: deleting [q] fails, or is not reached because of another failure
    (EnvironmentError, which is printed). *)
Section Delete.
Variable keep : bytes -> bool.

(** [if os.path.exists(p): os.remove(p)]; removing a directory fails. *)
Definition remove_file (p : bytes) (f : fs) : fs :=
  match f p with
  | Some (File _) => if keep p then f else (fun q => if bytes_eqb q p then None else f q)
  | _ => f
  end.
(** [if os.path.exists(p): shutil.rmtree(p)]; it fails for a file. *)
Definition remove_tree (p : bytes) (f : fs) : fs :=
  match f p with
  | Some Dir => fun q => if (bytes_eqb q p || inside p q) && negb (keep q) then None else f q
  | _ => f
  end.

Definition delete_state_and_output (n : pathnames) (f : fs) : fs :=
  let f1 := fold_left (fun f p => remove_file p f) [p_log n; p_status n; p_command n; p_history n; p_report n] f in
  fold_left (fun f p => remove_tree p f) [p_sgf_dir n; p_void_dir n; p_gtplog_dir n] f1.
End Delete.

(** ringmasters.py:451-453 [status_file_exists]. *)
Definition status_file_exists (n : pathnames) (f : fs) : bool :=
  match f (p_status n) with Some _ => true | None => false end.

(** ** ringmasters.py:192-218 [_parse_competition_type] *)

(** The first line that is neither blank nor a comment. *)
Fixpoint first_code_line (lines : list bytes) : option bytes :=
  match lines with
  | [] => None
  | l :: r => match lstrip l with
              | [] => first_code_line r
              | c :: _ => if ceqb c "#"%char then first_code_line r else Some l
              end
  end.

Fixpoint skip_prefix (p s : bytes) : option bytes :=
  match p, s with
  | [], _ => Some s
  | a :: p', b :: s' => if ceqb a b then skip_prefix p' s' else None
  | _ :: _, [] => None
  end.
Definition word_char (c : ascii) : bool := is_letter c || is_digit c || ceqb c "_"%char.
Fixpoint span_word (s : bytes) : bytes * bytes :=
  match s with
  | [] => ([], [])
  | c :: r => if word_char c then let '(a, b) := span_word r in (c :: a, b) else ([], s)
  end.
Definition is_quote (c : ascii) : bool := ceqb c "'"%char || ceqb c """"%char.

(** The regular expression, which leaves no choice: the white space can't run over the "=" or
    the quote, nor the word over the quote.  (A line has no newline, so "$" is its end.) *)
Definition match_type (line : bytes) : option (ascii * bytes * ascii) :=
  match skip_prefix (str "competition_type") line with
  | None => None
  | Some r =>
      match lstrip r with
      | "="%char :: r1 =>
          match lstrip r1 with
          | q :: r2 =>
              if is_quote q then
                match span_word r2 with
                | ([], _) => None
                | (t, [q']) => if is_quote q' then Some (q, t, q') else None
                | _ => None
                end
              else None
          | [] => None
          end
      | _ => None
      end
  end.

Definition parse_competition_type (source : bytes) : res bytes :=
  match first_code_line (split_on char_lf source) with
  | None => Err ValueError
  | Some line =>
      match match_type line with
      | None => Err ValueError
      | Some (q, t, q') => if ceqb q q' then Ok t else Err ValueError
      end
  end.

(** ringmasters.py:222-245 [_get_competition_class]. *)
Inductive competition_class : Type := Playoff | Allplayall | Ce_tuner | Mc_tuner.
Definition get_competition_class (t : bytes) : res competition_class :=
  if bytes_eqb t (str "playoff") then Ok Playoff
  else if bytes_eqb t (str "allplayall") then Ok Allplayall
  else if bytes_eqb t (str "ce_tuner") then Ok Ce_tuner
  else if bytes_eqb t (str "mc_tuner") then Ok Mc_tuner
  else Err ValueError.

(** ringmasters.py:144-158, the start of [_load_control_file]: which class of competition a
    control file's text asks for (ControlFileError becomes RingmasterError). *)
Definition class_of_control_file (source : bytes) : res competition_class :=
  match parse_competition_type source with
  | Err _ => Err RingmasterError
  | Ok t => match get_competition_class t with Ok c => Ok c | Err _ => Err RingmasterError end
  end.
