(** Pathnames and control file texts, for C69. *)
From Verif Require Import Base Bytes RingFilesModel.

(** The pathname [p] names the file [f] in the directory [d]. *)
Definition plain (f : bytes) : Prop := ~ In "/"%char f.
Definition slashes (s : bytes) : Prop := s <> [] /\ forall c, In c s -> c = "/"%char.
Inductive names : bytes -> bytes -> bytes -> Prop :=
| in_cwd f : plain f -> names f [] f
| in_root s f : slashes s -> plain f -> names (s ++ f) s f
| in_dir d c s f : c <> "/"%char -> slashes s -> plain f -> names ((d ++ [c]) ++ s ++ f) (d ++ [c]) f.

(** A file name is a code and an extension: the extension is from the last dot on, if there is
    something other than dots before that. *)
Definition only_dots (s : bytes) : Prop := forall c, In c s -> c = "."%char.
Definition has_extension (f code ext : bytes) : Prop :=
  f = code ++ ext /\
  ((exists t, ext = "."%char :: t /\ ~ In "."%char t /\ ~ only_dots code) \/
   (ext = [] /\ forall code' t, f = code' ++ "."%char :: t -> ~ In "."%char t -> only_dots code')).

(** The extensions of the files a competition makes. *)
Definition file_extensions : list bytes := map str ([".log"; ".status"; ".cmd"; ".hist"; ".report"]%string).
Definition directory_extensions : list bytes := map str ([".games"; ".void"; ".gtplogs"]%string).
Definition extensions : list bytes := file_extensions ++ directory_extensions.

(** The pathnames a competition uses for what it makes, in the order of [extensions]. *)
Definition files_of (n : pathnames) : list bytes := [p_log n; p_status n; p_command n; p_history n; p_report n].
Definition dirs_of (n : pathnames) : list bytes := [p_sgf_dir n; p_void_dir n; p_gtplog_dir n].
Definition generated (n : pathnames) : list bytes :=
  [p_log n; p_status n; p_command n; p_history n; p_report n; p_sgf_dir n; p_void_dir n; p_gtplog_dir n].

(** [q] is [p], or inside the directory [p]. *)
Definition within (p q : bytes) : Prop := q = p \/ exists r, q = p ++ "/"%char :: r.

(** Control file texts: the first line that isn't blank or a comment. *)
Definition blank (l : bytes) : Prop := forall c, In c l -> is_space c = true.
Definition comment (l : bytes) : Prop := exists s r, l = s ++ "#"%char :: r /\ blank s.
Definition first_line (source line : bytes) : Prop :=
  exists before after,
    source = join [char_lf] (before ++ line :: after) /\
    (forall l, In l (before ++ line :: after) -> ~ In char_lf l) /\
    (forall l, In l before -> blank l \/ comment l) /\
    ~ blank line /\ ~ comment line.

Definition declares (line t : bytes) : Prop :=
  exists s1 s2 q, blank s1 /\ blank s2 /\ (q = "'"%char \/ q = """"%char) /\
    line = str "competition_type" ++ s1 ++ "="%char :: s2 ++ [q] ++ t ++ [q] /\
    t <> [] /\ forall c, In c t -> is_letter c = true \/ is_digit c = true \/ c = "_"%char.


(** What a control file calls each type of competition. *)
Definition class_name (c : competition_class) : bytes :=
  match c with Playoff => str "playoff" | Allplayall => str "allplayall" | Ce_tuner => str "ce_tuner" | Mc_tuner => str "mc_tuner" end.
