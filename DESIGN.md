# A Rocq (Coq 8.16.1) model of gomill

Source modelled: `/repo/gomill/*.py` (Python 2).  Nothing of `/repo` is executed.

## Conventions

* One area of the code = several files in `rocq/theories/`:
  `XModel.v` (executable Gallina transcription of the Python functions, each
  definition citing file and lines), `XSpec.v` (what the English property means,
  independent of the model's helpers), `X...Proofs.v` (lemmas) and `XProps.v`
  (theorem statements closed by `exact`, `Print Assumptions`, and non-vacuity
  `Example`s).  Theorems are named `Cnn_...` after the property they belong to.
* Python exceptions are values: `res A := Ok a | Err exn` (`Base.v`),
  `gres` for GTP handlers, `sres` for settings (with the exception's text).
* A method that mutates an object returns the new object; where a failing
  call could leave a partial mutation behind, the model returns the object
  together with the exception, so that this can be stated.
* Python integers are `Z` (or `nat` for counters that are never negative);
  8-bit strings are `list ascii`; unicode strings are lists of code points.
* Python `set`s are duplicate-free lists; where the code depends on
  `set.pop()`/iteration order, the model takes the order as a parameter (a
  "scheduler" function), and theorems quantify over it.  Dicts are association
  lists (`Dict.v`) with Python 2's *unspecified* order either irrelevant to the
  result or sorted by the code.
* `while` loops are recursion on explicit fuel; running out of fuel is a
  distinguished result which the theorems exclude.
* Outside behaviour (engines, channels, the job source, the file system, move
  generators, random numbers, user functions in control files, `shlex`,
  `expanduser`, float formatting) is an arbitrary function, relation or state
  machine over which the theorems quantify.

## Plan and method per property

| Id | Model | How it is proved |
|----|-------|------------------|
| C01-C06 | `BoardModel`: `_make_group`, `_make_empty_region`, `_find_surrounded_groups`, `play`, `apply_setup`, `area_score` | `BoardSpec`: connectivity as reflexive-transitive closure, liberties, legal positions. Flood fill = connected component for every pop order (invariant + measure); induction over histories |
| C07 | `CommonModel` (ascii_boards): `render_grid`, `render_board`, `interpret_diagram` | positional indexing of the rendered text; every part of a legal position plays without capture |
| C08 | `CommonModel`: `format_vertex`, `move_from_vertex`, `str(int)`, `int(str)` | decimal codec lemmas |
| C09 | `CommonModel` (handicap_layout) | finite sweep over sizes plus general inequalities |
| C10-C15 | `SgfGrammarModel`, `SgfTreeConvModel` | tokeniser/printer inversion, explicit-stack parser vs recursive tree; heap of nodes for the work-list conversions |
| C16-C18, C46 | `SgfPropsModel` | character arithmetic, induction over lists, case analysis of property types |
| C19-C21, C47 | `SgfTreeModel`, `SgfMovesModel` | forest invariant preserved by each operation; map laws; histories of edits |
| C22-C24 | `SchedModel` | refinement of abstract token machines over histories with saves and restarts |
| C25-C27, C30 | `TournModel` | refinement of an abstract machine over histories; list induction for statistics |
| C28 | `JobModel` | transition systems, all interleavings |
| C29 | `RingModel`, `RingTourn*` | transition-system invariant incl. file system with atomic rename, crash points |
| C31-C33 | `GameplayModel` | state-machine invariants; adversarial backend |
| C34, C48 | `GtpGameModel` | traces of calls on arbitrary channels |
| C35, C36, C39 | `GtpModel` | string lemmas; Kahn-style connection of engine and controller |
| C37, C38 | `GtpStateModel` | invariant over command histories, on top of the board and SGF models |
| C40-C42, C49 | `MctsModel` | mixed radix arithmetic; ledgers over histories |
| C43 | `CemModel`, `CemFloat` | ledgers over histories; rational arithmetic; `SpecFloat` for the rounding counterexample |
| C44, C50, C51 | `SettingsModel` | case analysis on values; fold invariants |
| C45 | `ControllerModel` | trace invariants with an adversarial channel |
| C52-C56 | `ControlModel` | bidirectional: accepted with a result iff described by `ControlSpec`; link to the configurations of the tournament and tuner models |
| C57 | `GameSgfModel`: `make_sgf`, accessors | documents (`GameSgfSpec`) and what it means that a game displays one; each step of `make_sgf` is a step on documents; composed with C21, C32 and C47 |
| C58, C59 | `EngineModel`: `sanitise_utf8`, `Engine_description`, `check_player` | UTF-8 decoding one character at a time; dialogues as runs of calls on a controller that stop at an error, on top of C45 |
| C60, C61 | `JobSgfModel`: `describe_scoring`, `Gtp_game.make_sgf`, `Game_job._make_sgf` and the files | documents as in C57, built by the same edits; invariants of a run (`RunInvProofs`) give that the texts in the record of any game are UTF-8; saving and loading by C47/C57 |
| C62 | `JobRunModel`: `Game_job.run`, `make_environ`, `set_player_subprocess` | an invariant of what each engine has been told, stage by stage (`JobBodyProofs`), then of closing (`JobEndProofs`); the game itself by C32 and C48, the files by C61 |
| C63 | `SaveModel`: `handle_savesgf` | property maps on chains (`SaveMapProofs`, reusing C57's), C47 for the file, then `file_says` and C37's loadsgf theorems for loading back |
| C64 | `ProxyModel`: `gtp_proxy.py` over `ControllerModel` and `GtpModel` | per-command lemmas from C45's exchanges; sessions by simulation between the proxy and its back end (`ProxyTalkProofs`), over both kinds of channel of C36 |
| C65 | Table as a record with an association list of cells; render follows the code; spec `rendering` places texts by position; uniqueness theorem shows the spec is complete |
| C66 | the report writers as functions returning text, on top of TableModel; specification by words of the lines, counts as sizes of sets of games, decimals by nearness; invariant over the histories of TournSpec for the hypotheses |
| C67 | `SgfCharsetModel.v` (`get_charset`, `save_game`, `from_string` over an arbitrary codec registry). Both encodings of ASCII bytes coincide, so layout, escapes and brackets survive transcoding piece by piece; the recoded text is a layout of the recoded tree, which the parser theorems (C10) read back. Values: interpretation commutes with recoding, by property type. |
| C68 | `SgfLazyModel.v`: slots hold property maps and (once made) the links of their nodes; `make_tree` with its work list. Abstraction `forced` (each unmade node gets the links of the coarse tree) to the eager model of C19; each operation and query is a simulation step, expansion is the identity on the abstraction (loop invariant on the work list), loading commutes with it (numbering of the coarse tree against the eager loader's allocation order). |
| C69 | `RingFilesModel.v`: posixpath's split, splitext and join, the nine pathnames, deletion over a map from pathnames to entries with an arbitrary set of undeletable ones, the regular expression. `names`/`has_extension` in `RingFilesSpec.v` say what a pathname's directory, name and extension are; uniqueness of the decompositions gives distinctness, a length argument shows nothing is inside a generated directory by accident. |
| C70 | `RingConcModel.v`: a file system of names, inodes and locks; one step per system call; a competition's state is the list of games counted. Theorems over histories (event lists); proofs by invariants on reachable states: who holds the lock on which inode, kinds of inodes, what is linked under .cmd since a run began, the saved state is in the linked status inode, and the holder's state extends it. |
| C71 | `RunLogModel.v`: the job source of RingModel.v with its log entries, the presenters' channels and the texts shown. The specification defines the games in progress, the warnings and the counts from the log alone; an invariant over steps relates them to the ringmaster's state. |
| C72 | `CliModel.v`: a monad of calls with answers that depend arbitrarily on the history. The specification has the plans, a flat table of exit statuses by call and exception, the reasons for refusals, and what must have happened before each call; proofs by a compositional rule for parts of the command (`ends`) and induction over the player checks. |
| C73 | `MctsReportModel.v`: the texts; `MctsReportSpec.v` says what they are in terms of the ledger of finished games. Generations of nodes are complete and sorted (induction on the depth), the selection is a stable sort, figures come from C41's invariant; the description of the opponent by induction over events. |
| C74 | `CemReportModel.v`: the texts, and the types of the numbers of wins (integers until there's a draw); `CemReportSpec.v` says what they are in terms of C43's ledger. Texts from C43's invariant; the types by an invariant over histories; order and elites from the sorter's correctness, and both are determined by the points. |
| C75 | `ShowSgfModel.v`: the script's function over the parsing, main-line and board models; `ShowSgfSpec.v` defines the diagram and the game in a file. Proved from the main-line extraction (C21) and refinement of the rules of Go (C01). |
| C76 | `SplitSgfModel.v`: the script's function over the parser, tree and charset models; `SplitSgfSpec.v`: when a text is a copy of a game with a longer comment. From the parser's and serialiser's round trip (C10), tree loading (C47), text round trip (C13, C18) and a lemma that a change of the root's properties changes no other node. |
| C77 | `TerminalModel.v`: each method over arbitrary outcomes of the system calls; `TerminalSpec.v`: unbuffered attributes bit by bit, and when a check is undisturbed. By cases on the outcomes, induction over the input and over the checks. |
| C78 | `ClopModel.v`: the script over an arbitrary world of calls as in C72, and optparse for the one option there is; `ClopSpec.v`: verdict, right game, expected status. By combinators that say a computation prints nothing, runs no game and passes exceptions on, and symbolic execution of the main path. |
| C79 | `KgsModel.v` on top of the proxy of C64, with the record of channel events; invariants over sessions of commands; a pigeonhole argument for the filenames; the option is shown to be what C63 reads. |
| C80 | `TwogtpModel.v` on top of the game controller and games of C48/C60/C62, with the record of channel events; induction over the number of games; legality from C32/C48, files from C60. |
| C81 | `ForfeitModel.v` on top of the tournaments of C25 and the ringmaster actions of C72; the refinement invariant of C25 gives the recorded results, induction over matchups and results the lines. |
| C82 | `PipeModel.v`: reading lines from any byte string with any ending; `PipeSpec.v` describes responses as an inductive grammar over the raw bytes (lines, cleaned lines, what they mean) and the two are proved equivalent, total and deterministic. |
| C83 | `ScreenModel.v`: the presenter as a state machine over uses; `ScreenSpec.v` says what was given to a channel since it was last cleared (inductively, over the history) and what a part of the screen is; induction over the history from the right. |
| C84 | `MogoModel.v` on top of the proxies of C64; the theorems on customised proxies give the relaying, the connection is shown to stay open over any session. |
| C85 | `TestPlayerModel.v` runs the handlers on the engine of GtpModel; the specification is by the history of commands, and is shown to be total and deterministic and to be what the program does; the controller's view is by C82. |
| C86 | `StatefulModel.v`: the generator and the two extra handlers on top of GtpStateModel (all handlers of get_handlers, with gomill-savesgf) and of the engine of GtpModel; the theorems go through those of C37. |
| C87 | `WorkersModel.v`: the transition system of C28 with workers that are idle, running a job, ended or dead, a job queue that also carries the finish signals, and the manager's clean-up. An invariant over all runs (WorkersProofs.v), a progress argument and a bound on the number of steps. |
| C88 | `InteractiveModel.v`: the session loop with failing writes and either way of reading lines, on top of the engine of GtpModel; readline's state and history file as a record. Induction over the lines of the input. |

No property of the list was left out as inexpressible.  Later additions are described
in the header of the model file concerned.

## Trusted base

* The Coq 8.16.1 kernel (`coqc`), including `vm_compute` where a proof uses it.
* `Print Assumptions` stands under every property theorem: each one prints
  "Closed under the global context" unless the list at the end of this section says
  otherwise.  So no axioms are used, neither our own nor the standard library's.
  (A scan of the loaded libraries lists seven fields of `Coq.ssr.ssrunder.Under_rel`;
  they are parameters of a module type application in the standard library's ssreflect
  files and no theorem here depends on them.)
* The reading of the Python code, i.e. the models' faithfulness; simplifications are
  stated in the comment of each definition and summarised below.

## What is modelled, and what is not

Modelled (file: what is left out)

* `boards.py`, `common.py`, `ascii_boards.py`, `handicap_layout.py`: all.
* `sgf_grammar.py`: all.
* `sgf_properties.py`: all value types; encodings UTF-8, Latin-1 and ASCII (not
  `codecs.lookup` of others); Real as exact decimals of at most 15 significant digits.
* `sgf.py`: nodes, trees, games, `from_string`, `serialise` (with transcoding between the three
  encodings, in `SgfCharsetModel.v`; `codecs.lookup` is a parameter), the typed accessors; the lazy
  expansion of a loaded root is modelled in `SgfLazyModel.v` and proved equivalent to expanding at once.
* `sgf_moves.py`: all.
* `gameplay.py`: all.
* `gtp_engine.py`, `gtp_states.py` (all), `gtp_controller.py`
  (channels as protocol machines, `Gtp_controller`, `Game_controller`; not
  subprocess creation, pipes or resource usage), `gtp_games.py`,
  `utils.py`, `game_jobs.py` (`check_player` without the environment; the SGF files; `run` without log files).
* `gtp_proxy.py`: all (tracebacks are arbitrary texts).
* `ascii_tables.py`: all (no negative spans).
* `competition_schedulers.py`, `tournaments.py`, `playoffs.py`, `allplayalls.py`,
  `tournament_results.py`, `competitions.py` (players, pathnames, game settings);
  reports as texts, with exact quotients.
* `job_manager.py`: both managers; not the death of a worker process or signals.
* `ringmasters.py`: the job source, the status file, recovery, the pathnames, reset, finding the
  competition type, the system calls of concurrent processes (`RingConcModel.v`); the log and the display of a run (`RunLogModel.v`, with `ringmaster_presenters.py`; not the escape codes that clear the screen); the versions of status files are in `CliModel.v`.
* `ringmaster_command_line.py`: all but the parsing of options by optparse (`CliModel.v`).
* `settings.py`: all interpreters used by gomill, `load_settings`, quiet configs.
* `mcts_tuners.py`: scheduling, tree, control files, reports, history and notes (`MctsReportModel.v`).
* `cem_tuners.py`: scheduling, distributions, control files, reports, history and notes (`CemReportModel.v`).
* `gomill_examples/show_sgf.py`: `show_sgf_file` and the messages' reasons (`ShowSgfModel.v`).
* `terminal_input.py`: all; each system call has an arbitrary outcome (`TerminalModel.v`).
* `gomill_examples/gomill-clop`: all but loading the control file (of that, the parameters are modelled) (`ClopModel.v`).
* `gomill_examples/kgs_proxy.py`: all but optparse and KeyboardInterrupt (`KgsModel.v`).
* `gomill/tournament_results.py` `Tournament_results`, `Ringmaster.get_tournament_results`, `gomill_examples/find_forfeits.py`: all but optparse (`ForfeitModel.v`).
* `gomill/gtp_controller.py` `Linebased_gtp_channel` and `Subprocess_gtp_channel` against any program at all, whatever bytes it sends (`PipeModel.v`; starting the process is C64's and C39's).
* `gomill/ringmaster_presenters.py`: all, to the byte (`ScreenModel.v`; the contents of the boxes are also in `RunLogModel.v`).
* `gomill_examples/mogo_wrapper.py`: all, but for the handling of KeyboardInterrupt (`MogoModel.v`).
* `gomill/gtp_engine.py` 424-523: sessions with failing writes, interactive sessions, completion (C88).
* `gomill/job_manager.py` once more: dying workers, the finish signals and `finish`, the function `run_jobs` (C87).
* `gomill_examples/gtp_stateful_player`: all but the main function (`StatefulModel.v`).
* `gomill_examples/gtp_test_player`: all but the main function (`TestPlayerModel.v`).
* `gomill_examples/twogtp`: all but optparse and `--verbose` (`TwogtpModel.v`).
* `gomill_examples/split_sgf_collection.py`: all but the command line and reading the source (`SplitSgfModel.v`).

Not modelled: `compact_tracebacks.py`,
the `ringmaster` script, `gomill/__init__.py`, documentation, tests and the other examples.
Files under `rocq/theories/` whose header says otherwise supersede this list.

General simplifications

* Floats are exact: decimals `m/10^k` for komi and margins, rationals in tuners and
  settings (plus inf and nan where the code can meet them).  IEEE rounding is modelled
  only in `CemFloat.v` (variances) and `float_of_int` (settings).
* Values of a Python type that callers never pass give `TypeError` in the model.
* 'int' and 'long' are distinguished only in settings.
* The urgency order of the MCTS tuner is an arbitrary strict order.

## Findings (claims that are false of the code; most are refuted by a theorem or shown by an Example)

* Boards/handicaps: fixed handicaps are refused on 7x7 although GTP allows them;
  `Group_scheduler.all_fixed` is wrong for unlimited groups; `serialise_go_point`
  fails with IndexError at size 26.
* SGF: a `main_sequence_iter` created before a loaded tree is built and first advanced afterwards raises
  AttributeError (`C68_late_iterator`); a CA value with a NUL makes `from_string` raise TypeError instead of ValueError; LB/AR/LN/FG values without a colon raise TypeError instead of ValueError; `set_move` and
  `set_setup_stones` delete the old values before a failing set; a root with only AE (or
  an empty AB) makes `get_setup_and_moves` say "setup properties after the root node"; the
  parser accepts empty property identifiers, and then the serialised text is unreadable.
* Gameplay: an off-board attempt resets the count of consecutive passes; a move limit of 0
  or less still plays one move; boards above 25 make forfeits unformattable.
* Game records: comments that are not UTF-8 make `make_sgf` fail when there is a final message;
  an engine's illegal move text goes unsanitised into the result's detail and so into a comment
  of the record, after which adding another comment raises an error (`Game_job._make_sgf` does that);
  a first `genmove` rejected with such a text loses the whole result (`C61_finding_unreadable_forfeit`).
* Game jobs: an engine that answers `version` with more than 64 blanks makes IndexError come out of
  `run`, leaving the engines running (`C62_finding_engine_left_running`); the number of free handicap
  stones that Black's engine names is not checked.
* GTP engine: `_clean_response` can leave a blank line ("\n\n\n", or a control
  character between newlines) or trailing white space, so a response can desynchronise
  the controller; '#' in argument words and digits before a command are misread.
* Gtp_state: a failed `loadsgf` of another size leaves a wrong `board_size`; setup stones are
  not in the history; a stale ko after a genmove pass; a failed `set_free_handicap` drops passes;
  `place_free_handicap` on size 7 or less raises an uncaught ValueError, and asked for 20
  stones places 9 but records 20; `gomill-savesgf` always fails before the first move
  (`C63_finding_no_moves`), can't be given a backslash followed by an underscore, and raises an uncaught exception for an
  `SZ` option or a name of more than 64 letters.
* Reports: the scores by colour of a matchup each include all its jigos, so a percentage can
  exceed 100 (`C66_demo_playoff`).
* Tournaments: removing a not-yet-played matchup from the control file after a report makes
  restarting raise IndexError; an all-play-all with a single competitor raises IndexError
  in `count_games_expected` and `get_player_checks`; `max_games` is decremented
  even when no game is available and a negative one never stops; the breakdown by colour
  over-counts jigos.
* Text tables: a blank line of headings isn't omitted; a column given fewer values again keeps the
  old ones; a table with columns and no rows raises ValueError.
* Proxies: a response that `_clean_response` leaves with blank lines is changed again by the proxy
  (`C64_finding_cleaned_twice`); an empty failure response becomes "unspecified error".
* Controller: a failing plain `close()` leaves the controller open, so the channel can be
  closed twice; the message "failure response from <command> to <name>" has them
  swapped; a `known_command` query that ends in a propagated error is not remembered.
* GTP games: a `final_score` of "B+inf" or "B+nan" makes creating the result raise
  OverflowError or ValueError; two nan margins count as different; `close_players` twice
  duplicates `late_errors`.
* Engine descriptions: `clean_version` can be an empty string (a version that is just the name),
  contrary to the documentation; a version of more than 64 blanks raises IndexError.
* `check_player`: when a check fails the engine's channel is not closed.
* Ringmaster: `_open_files` has `except EnvironmentError:` without a name when it can't create the directories
  for game records or GTP logs, so UnboundLocalError (a NameError) comes out instead of RingmasterError.
* Command line: a report file that can't be written, and `debugstatus` without a status file, are reported as
  internal errors with status 4.
* Concurrent ringmasters: a run loads the state before it takes the lock, so results of a run that ends
  in between are lost (`C70_finding_lost_results`); a reset while a run is active lets a second run
  start (`C70_finding_reset`); a stop command given while a run starts up is lost
  (`C70_finding_early_stop`).
* Files of a competition: two control files with the same name but for the extension share all their
  files; a control file may be called "foo.status.new", the temporary file of "foo.ctl", which then
  overwrites and renames it (`C69_finding_temporary`); reset leaves that temporary file if there is one;
  a control file with CR LF line ends is refused.
* MCTS tuner: the number of "games played" in reports includes failed games (`C73_demo_reports`); rounding of negative values in an integer Linear_scale truncates (-1.6 -> -1);
  failed games count towards `number_of_games` and are never retried; a status with different
  `max_depth` or initial visits is accepted; `initial_wins <= initial_visits` isn't checked;
  komi inf or nan raises OverflowError or ValueError, not ControlFileError.
* CEM tuner: increasing `batch_size` after the end, or reducing `number_of_generations` below
  the current one, makes the tuner play on for ever; float rounding can make a variance
  negative, which stops the tuner (`C43_float_variance_can_be_negative`).
* Settings: `gtp_aliases=None` and `startup_gtp_commands=None` pass `allow_none` but then
  fail with a TypeError text; `startup_gtp_commands=[""]` gives IndexError's text; a string is
  taken as a sequence of one-character commands; booleans count as ints, longs don't;
  integers too big for a float raise OverflowError; commas are allowed in identifiers; a
  playoff player code "p#2" is accepted after an earlier matchup of p against itself.
* The cross-entropy tuner's reports show the variance of each parameter where the code calls it the standard deviation; a candidate's half points are dropped in the history, and shown in the reports (as "1.0" rather than "1" if it had a draw) (C74).
* show_sgf: a board of size 26 can be parsed but not shown; an encoding name with a NUL character gives a TypeError's message (C75).
* split_sgf_collection: a game whose root has two comment values, or a comment or file name not expressible in its encoding, stops the script although it could be copied (C76).
* The keyboard stop: termios.error isn't an EnvironmentError, so if the terminal has gone a check raises it (or
  tcgetpgrp's OSError) and ends the run (`C77_finding_terminal_gone`); a signal right after the attributes were changed
  leaves the terminal unbuffered (`C77_finding_interrupted`); the terminal's process group is compared with the
  process's own number, so without leading its group a run says ^X works but never sees it.
* gomill-clop: an argument such as a negative parameter value is taken for an option, so nothing is printed and the exit status is 2
  (`C78_finding_negative`); if an output directory can't be made 'setup' dies of a NameError (`C78_finding_name_error`), and if the .clop file
  can't be written it reports an internal error; a control file named x.clop is overwritten by 'setup' (`C78_finding_overwrites`).
* The kgsGtp proxy: an engine whose name or version has a blank ("GNU Go") never gets its games saved, as the proxy escapes blanks
  in a way that can't be sent (`C79_finding_blank_in_name`); a failure response to genmove is reported as an internal error with a
  traceback, and a lost connection doesn't end the session (`C79_genmove`, compare C64).
* twogtp: if an engine declares another protocol version there is a traceback (only GtpChannelError is caught), and if a file can't be
  written the script exits: in both cases the engines are left running (`C80_finding_version`, `C80_finding_write`).
* An error in closing a subprocess's response pipe is mentioned twice in the error that `close` raises (C82_finding_twice).
* A response whose first line begins with a space or a tab is refused, although such a first byte is accepted as the start of GTP (C82_finding_space).
* If the environment has LINES, standard output is a terminal and the command `clear` fails, showing the screen raises TypeError (LINES is a string), so the ringmaster fails when the first game starts (C83_finding_lines).
* mogo_wrapper.py ends with a traceback, not a message, if mogo can't be launched, fails or refuses the board size (C84_no_start); 'boardsize 013' is refused though it is the size (C84_example_started).
* `gtp_test_player`: "counting from the start of the game" (its documentation) isn't what
  happens: clear_board and boardsize don't start the count again, so that in the second game of a
  session a delayed error comes too early; a move number of 0 never comes (C85).
* `gtp_stateful_player`: on a full board genmove fails with an internal error (IndexError from random.choice) and a traceback unless it resigns (C86);
  its documentation calls gomill-resign_p "gomill_resign_p".
* C87: the manager never looks whether its workers are alive: when a worker dies with a job (or all workers die) run_jobs hangs for ever. After an error from the job source, the jobs still queued are all run before the exception comes out, and their results are thrown away.
* C88: when the controller goes away (or another exception comes out of an interactive session) the completer stays installed, the delimiters stay empty and the history is not saved.

## Testing the theorems

`seeded/LOG.jsonl`: edits of the models in the way of realistic bugs, with the theorems
that no longer prove.  An edit is applied in a scratch copy; every proof that fails is
admitted there, and `Print Assumptions` of all property theorems then tells which of them
depend on a failed lemma.
