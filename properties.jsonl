{"id": "C01", "title": "Playing a stone captures exactly what the Go rules say", "statement": "Starting from a legal position, a successful Board.play(row,col,colour) leaves every point as the rules of Go (with suicide allowed) prescribe: the stone is placed; every opponent stone whose solidly-connected group then has no liberty is removed; if no opponent stone is removed and the group containing the new stone has no liberty, that group is removed; every other point is unchanged.", "quantifier": "every board size >= 2, every legal position, every empty point on the board and both colours", "why_tests_cant": "The number of positions is astronomically large; tests can only sample shapes of groups, and the implementation's shortcut (classifying by the number of surrounded groups) is right only because of an argument about all legal positions.", "anchors": ["gomill/boards.py:Board.play", "gomill/boards.py:Board._find_surrounded_groups", "gomill/boards.py:Board._make_group"]}
{"id": "C02", "title": "A Board is always a legal position and is_empty() is exact", "statement": "After any sequence of play() and apply_setup() calls on a fresh Board, including calls that raise, every group of stones on the board has at least one liberty, and is_empty() returns true exactly when get() returns None for every point.", "quantifier": "every board size, every finite history of play/apply_setup calls with any arguments", "why_tests_cant": "is_empty() is an incrementally maintained flag and legality is a global invariant; both depend on the whole history.", "anchors": ["gomill/boards.py:Board", "gomill/boards.py:Board.is_empty"]}
{"id": "C03", "title": "Board errors are exact and leave the position unchanged", "statement": "Board.play raises IndexError exactly when the point is off the board, otherwise ValueError exactly when the point is occupied; Board.get raises IndexError exactly when the point is off the board; apply_setup raises IndexError exactly when some listed point is off the board. Whenever one of these raises, the position and is_empty() are unchanged. On a legal board no other exception is possible.", "quantifier": "every board state reachable from a fresh board, every integer coordinate pair (negative and oversized included)", "why_tests_cant": "Python's negative indexing and the self_capture[0] access make 'no other exception' a claim about all positions.", "anchors": ["gomill/boards.py:Board.play", "gomill/boards.py:Board.get", "gomill/boards.py:Board.apply_setup"]}
{"id": "C04", "title": "The simple-ko point is reported exactly when a simple ko arises", "statement": "The value returned by Board.play is a point p exactly when the move captured a single opponent stone, which stood at p, and the newly played stone is left as a lone stone whose only liberty is p; otherwise None. Playing immediately back at the returned point would recreate the previous position.", "quantifier": "every legal position, every legal placement", "why_tests_cant": "It is a statement about all positions; the code infers it from counts of surrounded groups.", "anchors": ["gomill/boards.py:Board.play"]}
{"id": "C05", "title": "apply_setup yields a legal position and reports whether the specification was legal", "statement": "Board.apply_setup sets the listed points (later lists overriding earlier ones), removes exactly those stones whose groups have no liberties in the specified position, and returns true exactly when nothing had to be removed, i.e. when the position as specified was legal.", "quantifier": "every reachable board, every three lists of points", "why_tests_cant": "Group structure of an arbitrary specified position is unbounded.", "anchors": ["gomill/boards.py:Board.apply_setup"]}
{"id": "C06", "title": "area_score is the area score", "statement": "Board.area_score() equals (black stones + empty points connected through empty points to a black stone) - (white stones + empty points connected through empty points to a white stone), for every position; it does not depend on the order in which the flood fill visits points.", "quantifier": "every board size, every position, every set-iteration order", "why_tests_cant": "Python set.pop() order is unspecified and the number of regions is unbounded.", "anchors": ["gomill/boards.py:Board.area_score", "gomill/boards.py:Board._make_empty_region"]}
{"id": "C07", "title": "ASCII board diagrams round-trip", "statement": "For every legal position of size 2 to 25, interpret_diagram(render_board(b), size) gives a board with the same stone on every point.", "quantifier": "every size 2..25 and every legal position", "why_tests_cant": "interpret_diagram replays stones one at a time through play(); that no intermediate capture happens is a claim about every legal position.", "anchors": ["gomill/ascii_boards.py:render_board", "gomill/ascii_boards.py:interpret_diagram"]}
{"id": "C08", "title": "GTP vertices round-trip and never leave the board", "statement": "move_from_vertex(format_vertex(m), size) = m for every move m on a board of size 1..25 (and for pass); whatever string is given, move_from_vertex returns a point inside the board, pass, or raises ValueError; case does not matter.", "quantifier": "every string, every size, every move", "why_tests_cant": "The input domain is all strings.", "anchors": ["gomill/common.py:format_vertex", "gomill/common.py:move_from_vertex"]}
{"id": "C09", "title": "Fixed handicap layouts are valid", "statement": "For every board size up to 25 and number of stones n, handicap_points(n,size) raises ValueError unless 2 <= n <= max_fixed_handicap_for_board_size(size); otherwise it returns exactly n distinct points, all on the board and none on the first line, the set being the one GTP prescribes (for every n, symmetric under 180-degree rotation except for n=3), and smaller layouts share corners.", "quantifier": "every integer board size and every integer number of stones", "why_tests_cant": "All sizes and counts, including negative and out-of-range values.", "anchors": ["gomill/handicap_layout.py:handicap_points", "gomill/handicap_layout.py:max_fixed_handicap_for_board_size"]}
{"id": "C10", "title": "SGF serialisation round-trips through the parser", "statement": "For every coarse game tree with well-formed nodes and sequences, and every wrap width (or none), parse_sgf_game(serialise_game_tree(tree, wrap)) returns the same tree; concatenating serialisations and parsing with parse_sgf_collection returns the list of trees.", "quantifier": "every game tree (unbounded depth, branching, node sizes and property values), every wrap setting", "why_tests_cant": "Recursive data of unbounded size with an escaping layer and a line-wrapping layer in between.", "anchors": ["gomill/sgf_grammar.py:serialise_game_tree", "gomill/sgf_grammar.py:parse_sgf_game", "gomill/sgf_grammar.py:parse_sgf_collection", "gomill/sgf_grammar.py:block_format", "gomill/sgf_grammar.py:tokenise"]}
{"id": "C11", "title": "The SGF parser is total and returns only well-formed trees", "statement": "For every byte string, parse_sgf_game and parse_sgf_collection either raise ValueError or return trees in which every sequence is non-empty, every property has at least one value, every value passes is_valid_property_value and every property identifier consists of at most 64 upper-case letters (the code lets an identifier written in lower case through as the empty string); no other exception (assertion, index error) occurs and the parser always terminates.", "quantifier": "every byte string", "why_tests_cant": "The input domain is all byte strings, including malformed ones.", "anchors": ["gomill/sgf_grammar.py:tokenise", "gomill/sgf_grammar.py:_parse_sgf_game", "gomill/sgf_grammar.py:parse_sgf_collection"]}
{"id": "C12", "title": "Line wrapping never splits or reorders tokens", "statement": "block_format(pieces, width) returns the pieces concatenated in order with only newlines inserted between pieces, and every line is at most width long unless it consists of a single piece.", "quantifier": "every list of strings and every width", "why_tests_cant": "Unbounded lists and widths.", "anchors": ["gomill/sgf_grammar.py:block_format"]}
{"id": "C13", "title": "SGF text escaping is loss-free", "statement": "For every byte string s: escape_text(s) is a valid property value; text_value(escape_text(s)) is s with its whitespace normalised only as the SGF Text type requires (each line break to a newline, other whitespace to a space); simpletext_value(escape_text(s)) additionally maps line breaks to spaces; and both give s back exactly when s has only ordinary characters, spaces (and, for text_value, newlines).", "quantifier": "every byte string", "why_tests_cant": "Interaction of backslashes, brackets, colons and soft line breaks over all strings.", "anchors": ["gomill/sgf_grammar.py:escape_text", "gomill/sgf_grammar.py:text_value", "gomill/sgf_grammar.py:simpletext_value", "gomill/sgf_grammar.py:is_valid_property_value"]}
{"id": "C14", "title": "Composed values split back into their parts", "statement": "parse_compose(compose(escape_text(a), s2)) gives back s2 exactly as the second part, and a first part with the same text_value and simpletext_value as escape_text(a) (the same bytes if a has no colon); parse_compose splits at the first unescaped colon and nowhere else.", "quantifier": "every pair of byte strings", "why_tests_cant": "All positions of colons and backslashes.", "anchors": ["gomill/sgf_grammar.py:compose", "gomill/sgf_grammar.py:parse_compose", "gomill/sgf_grammar.py:escape_text"]}
{"id": "C15", "title": "Coarse trees and node trees represent the same game", "statement": "Converting a coarse game tree to a tree of nodes and back preserves every node, the branching structure and the order of variations (a linear run of nodes becoming one sequence), and the main line of the coarse tree is the list of nodes on the first-child path.", "quantifier": "every game tree of any depth and branching", "why_tests_cant": "Unbounded recursive structures; the implementation uses explicit work stacks.", "anchors": ["gomill/sgf_grammar.py:make_tree", "gomill/sgf_grammar.py:make_coarse_game_tree", "gomill/sgf_grammar.py:main_sequence_iter"]}
{"id": "C16", "title": "SGF points round-trip at every supported size", "statement": "For every size from 1 to 25 and every point or pass, interpret_go_point(serialise_go_point(move,size),size) = move; at size 26 (documented as supported) the same holds except that points on the bottom row or in the last column make serialise_go_point raise IndexError (a defect, proved); interpret_go_point only ever returns a point on the board, a pass, or raises ValueError.", "quantifier": "every size in 1..26, every move, every byte string", "why_tests_cant": "Pass encoding depends on size; the domain of inputs is all strings.", "anchors": ["gomill/sgf_properties.py:interpret_go_point", "gomill/sgf_properties.py:serialise_go_point"]}
{"id": "C17", "title": "SGF point lists denote sets of points", "statement": "interpret_point_list(serialise_point_list(S)) = S for every set S of board points; a compressed rectangle a:b denotes exactly the points between its corners; every returned point is on the board.", "quantifier": "every size, every set of points, every list of values", "why_tests_cant": "All subsets of the board, all compressed encodings.", "anchors": ["gomill/sgf_properties.py:interpret_point_list", "gomill/sgf_properties.py:serialise_point_list"]}
{"id": "C18", "title": "Typed SGF property values round-trip", "statement": "For each SGF property type (none, number, real, double, colour, simple text, text, point, move, point list and empty list, application, arrows/lines, figure, labels), interpreting the serialisation of a value gives the value back (texts up to SGF whitespace normalisation; reals below 0.0001 read as 0).", "quantifier": "every value of every type", "why_tests_cant": "Unbounded values and strings.", "anchors": ["gomill/sgf_properties.py:Presenter.interpret", "gomill/sgf_properties.py:Presenter.serialise"]}
{"id": "C19", "title": "SGF tree editing keeps a tree", "statement": "After any sequence of new_child, delete and reparent calls, the nodes reachable from the root form a tree: every non-root node occurs exactly once in its parent's child list and nowhere else, parent pointers agree with child lists, and there are no cycles; an operation that raises leaves the tree unchanged; reparent preserves the set of reachable nodes and the subtree below the moved node.", "quantifier": "every finite history of tree edits with any arguments", "why_tests_cant": "An invariant of a mutable pointer structure over all histories.", "anchors": ["gomill/sgf.py:Tree_node.new_child", "gomill/sgf.py:Tree_node.delete", "gomill/sgf.py:Tree_node.reparent"]}
{"id": "C20", "title": "SGF node access behaves like a map, and the board size cannot change", "statement": "For any sequence of set/set_raw_list/unset on nodes of a game, get_raw_list returns the value most recently set for that identifier and other identifiers are unaffected; any attempt to change or remove the root's SZ raises and changes nothing, so get_size() is constant and always agrees with the SZ property.", "quantifier": "every finite history of property edits", "why_tests_cant": "A claim over all histories and identifiers.", "anchors": ["gomill/sgf.py:Node.set_raw_list", "gomill/sgf.py:Node.unset", "gomill/sgf.py:_Root_tree_node"]}
{"id": "C21", "title": "The main line extracted from an SGF file is faithful", "statement": "get_setup_and_moves returns the board given by the root's setup properties and the moves of the main sequence in order; it raises ValueError exactly when the root has both setup and a move, a later node has setup stones, the supplied board is unusable, a setup or move value is malformed or the setup is illegal (a root whose only setup is AE, or is empty, counts as setup after the root: a departure from the documentation); writing moves into a new game and reading them back gives the same moves.", "quantifier": "every SGF game and every list of moves", "why_tests_cant": "Unbounded games.", "anchors": ["gomill/sgf_moves.py:get_setup_and_moves", "gomill/sgf_moves.py:set_initial_position"]}
{"id": "C22", "title": "A game token is never handed out twice", "statement": "For every history of issue and fix calls on a Simple_scheduler, a token is never issued again while it is outstanding or after it has been fixed; issued counts tokens handed out and not lost, fixed counts tokens fixed; fix of a token that is not outstanding raises and changes nothing.", "quantifier": "every history of issue/fix calls", "why_tests_cant": "Histories are unbounded.", "anchors": ["gomill/competition_schedulers.py:Simple_scheduler"]}
{"id": "C23", "title": "Crash recovery loses and duplicates nothing", "statement": "If a scheduler is saved at any point of any history, restored and rolled back, then from there every token not fixed at the save is issued again exactly once (smallest first, before any new token), no fixed token is ever reissued, and after running n more issue/fix pairs exactly the first tokens are fixed; this holds for any number of crashes.", "quantifier": "every history with any number of save/restore points", "why_tests_cant": "All interleavings and all crash points.", "anchors": ["gomill/competition_schedulers.py:Simple_scheduler.rollback", "gomill/competition_schedulers.py:Simple_scheduler.__getstate__"]}
{"id": "C24", "title": "Group scheduling respects limits and is balanced", "statement": "A Group_scheduler never issues more tokens in a group than its limit, always issues from a group with fewest issued tokens among those below their limit (ties to the first listed), returns (None, None) only when every group has reached its limit, keeps each group's history when the groups are changed by set_groups, and all_fixed() holds exactly when every limited group has fixed its limit.", "quantifier": "every list of groups, limits and every history of issue/fix/set_groups/rollback/save-restore", "why_tests_cant": "Unbounded histories and group lists.", "anchors": ["gomill/competition_schedulers.py:Group_scheduler"]}
{"id": "C25", "title": "Tournament results and scheduling never disagree, at any crash point", "statement": "In every state a playoff or all-play-all tournament can persist or recover, for each matchup the number of recorded results equals the number of games the scheduler regards as complete, no game (matchup and game number) has two recorded results, and a game without a recorded result will be offered again unless it is in progress; games with errors are retried when the matchup has worked in this run and didn't fail last time; when nothing is left to hand out and nothing is outstanding, every matchup has its number of results.", "quantifier": "every history of get_game/process_game_result/process_game_error/save/restart", "why_tests_cant": "All schedules and all crash points.", "anchors": ["gomill/tournaments.py:Tournament", "gomill/competition_schedulers.py", "gomill/ringmasters.py:Ringmaster"]}
{"id": "C26", "title": "Game ids are unique and colours alternate", "statement": "Two different games of a tournament never get the same game id, for matchups with or without a limit on the number of games; with alternating enabled, players swap colours in successive games of a matchup, and otherwise the first player is always black.", "quantifier": "all matchups, all game numbers, all limits", "why_tests_cant": "Zero-padding widths and unbounded game numbers.", "anchors": ["gomill/tournaments.py:Tournament.get_game", "gomill/competitions.py:leading_zero_template"]}
{"id": "C27", "title": "All-play-all covers every pair exactly once", "statement": "For n competitors an all-play-all has exactly n(n-1)/2 matchups, containing every unordered pair of distinct competitors exactly once with distinct matchup ids, and the short codes of competitors are distinct; the announced number of expected games is rounds times that.", "quantifier": "every number of competitors for which codes exist", "why_tests_cant": "All n.", "anchors": ["gomill/allplayalls.py:Allplayall", "gomill/allplayalls.py:_spread"]}
{"id": "C28", "title": "The job manager runs every job exactly once with bounded parallelism", "statement": "Whatever the worker finishing order, at most number_of_workers jobs are in flight, each job obtained from the job source is run exactly once and exactly one response or error response for it is delivered, and run_jobs returns only when the source has no more jobs and nothing is outstanding.", "quantifier": "every schedule of worker completions, every job source, every worker count", "why_tests_cant": "Schedules are unbounded and non-deterministic.", "anchors": ["gomill/job_manager.py"]}
{"id": "C29", "title": "The ringmaster's bookkeeping survives restarts and respects the game limit", "statement": "Across any history of jobs, responses, errors, status writes and restarts, at every moment the games recorded as in progress are exactly those issued and not yet answered, games interrupted by a restart are replayed, the number of games started in a run never exceeds max_games, and the status file on disk is always a complete old or new status.", "quantifier": "every history of events and every crash point", "why_tests_cant": "All crash points including between writing and renaming the status file.", "anchors": ["gomill/ringmasters.py:Ringmaster"]}
{"id": "C30", "title": "Matchup statistics add up", "statement": "For every list of game results between two distinct players, total = wins_1 + wins_2 + unknown (with each jigo counting half a win to both), every game is counted once as black and once as white, forfeits are among the losses, and no total exceeds the games played; in the breakdown by colour black's and white's scores add up to the players' scores, but every jigo counts for both colours of both players, so a player's scores by colour exceed the player's score by the jigo score.", "quantifier": "every list of results", "why_tests_cant": "Unbounded lists mixing wins, jigos and unknown results.", "anchors": ["gomill/tournament_results.py:Matchup_stats"]}
{"id": "C31", "title": "A Game finishes exactly once, for exactly one reason", "statement": "In every history of record_move/record_resignation/record_claim/record_forfeit calls allowed by the Game API, at most one ending reason is recorded, the winner is set exactly for resignation, claim, forfeit, the end-of-game callback fires exactly once, at the moment the game ends, the number of recorded moves never exceeds the move limit and players alternate.", "quantifier": "every history of calls", "why_tests_cant": "All histories.", "anchors": ["gomill/gameplay.py:Game"]}
{"id": "C32", "title": "Game_runner only accepts legal moves, terminates, and its record replays", "statement": "For any backend behaviour, run() ends after at most move_limit moves; the recorded moves alternate colours and, replayed on the starting board, are all legal (no occupied point, no simple-ko violation) and give the final board; the game ends by two passes, resignation, claim, forfeit or the move limit, a rejected or illegal move losing the game for its mover.", "quantifier": "every backend, every starting position, every move limit", "why_tests_cant": "The backend is an arbitrary adversary.", "anchors": ["gomill/gameplay.py:Game_runner"]}
{"id": "C33", "title": "Game results state the right winner and margin", "statement": "The result constructed from a final board score, komi and handicap compensation names black as winner exactly when the adjusted score is positive, white exactly when it is negative, jigo when zero, and the margin is its absolute value; no/short/full compensation subtract 0, handicap-1 and handicap.", "quantifier": "every score, komi and handicap", "why_tests_cant": "All rationals.", "anchors": ["gomill/gameplay.py:adjust_score", "gomill/gameplay.py:Result"]}
{"id": "C34", "title": "Players' scores are combined fairly", "statement": "When both players give final_score, the winner is accepted only if they agree on who won and the margin only if they agree on it; when one player gives no result the other's is used; otherwise the result is unknown.", "quantifier": "every pair of responses", "why_tests_cant": "All response strings.", "anchors": ["gomill/gtp_games.py:_Gtp_backend", "gomill/gtp_games.py:_score_game_gtp"]}
{"id": "C35", "title": "Every GTP response is well framed", "statement": "For every command line and every handler behaviour, a line that is a command gets exactly one response, which starts with '=' or '?' according to the outcome, echoes the command id given (nothing for a negative one, 2147483647 for a larger one), and contains no control character other than newline; handler text that is already fit for GTP is sent unchanged, other printable text is made fit unless it has two blank lines in a row (a defect: then the response contains a blank line), and a response with fit text ends at its only blank line; a line that is blank, a comment or only an id gives no response and changes nothing.", "quantifier": "every command line and handler result string", "why_tests_cant": "All strings.", "anchors": ["gomill/gtp_engine.py:Gtp_engine_protocol.handle_line", "gomill/gtp_engine.py:_clean_response"]}
{"id": "C36", "title": "Controller and engine agree on commands and responses", "statement": "For any interleaving of sending commands and asking for replies over a line-based channel, with commands whose words contain no '#' and which do not start with a number (the controller accepts such words, but the engine misreads them), and engine texts fit for GTP: the replies are exactly the engine's answers to the same commands given directly, in order, less white space at the start of the text, and 'channel closed' once the engine has ended the session; the in-process channel gives exactly the engine's answers for all words. Words with spaces or control characters are refused before anything is sent.", "quantifier": "every command, argument list and response", "why_tests_cant": "All strings and all sequences of exchanges.", "anchors": ["gomill/gtp_controller.py:Gtp_channel", "gomill/gtp_controller.py:Linebased_gtp_channel", "gomill/gtp_engine.py:_parse_line"]}
{"id": "C37", "title": "A GTP engine's board is the replay of its history, and its commands do what they say", "statement": "After any sequence of GTP commands to a Gtp_state (boardsize, clear_board, komi, fixed_handicap, place_free_handicap, set_free_handicap, play, genmove, gomill-genmove_ex, reg_genmove, undo, showboard, loadsgf, gomill-explain_last_move, time_left, time_settings) - with any arguments, move generators and files, and as long as no loadsgf failed on a file of another board size since the last clear_board or boardsize - the board is the position that the recorded moves lead to, by the rules of Go, from the base position; each successful command changes exactly what GTP says; the ko point told to a move generator is right except that it may survive passes; undo takes back one move; commands with proper arguments succeed; clear_board and boardsize always start a new game. (After a failed loadsgf of another size the board size is wrong and stones can appear that the history doesn't explain: proved as a refutation.)", "quantifier": "every sequence of commands, with every argument list, every move generator and every file content", "why_tests_cant": "All histories of commands: a test runs a few of them.", "anchors": ["gomill/gtp_states.py:Gtp_state"]}
{"id": "C38", "title": "Failed GTP commands change nothing", "statement": "When a Gtp_state command fails (error response, fatal error or uncaught exception) the state is unchanged, except that a set_free_handicap that fails while placing stones on an empty board starts a new game (dropping recorded passes), and a loadsgf that fails in a file with an acceptable size leaves that size in force (board, base position, history, komi, handicap and clocks are unchanged).", "quantifier": "every reachable state, every command and every argument list", "why_tests_cant": "All states and arguments.", "anchors": ["gomill/gtp_states.py:Gtp_state"]}
{"id": "C39", "title": "GTP argument interpretation is safe", "statement": "interpret_boolean, interpret_colour, interpret_vertex, interpret_int and interpret_float return a value in the documented range or raise GtpError for every argument string.", "quantifier": "every string", "why_tests_cant": "All strings.", "anchors": ["gomill/gtp_engine.py:interpret_int", "gomill/gtp_engine.py:interpret_colour", "gomill/gtp_engine.py:interpret_vertex"]}
{"id": "C40", "title": "The MCTS tuner's parameter tree tiles the parameter space", "statement": "For every number of dimensions and subdivision, the cube coordinates of a node's children enumerate each cell exactly once; the parameter vector of a path is the centre of its cell, lies strictly between 0 and 1 in each dimension, and the cells at each depth partition the space.", "quantifier": "all dimensions, subdivisions, depths and paths", "why_tests_cant": "Unbounded dimensions and depths.", "anchors": ["gomill/mcts_tuners.py:Tree"]}
{"id": "C41", "title": "MCTS tuner statistics are conserved", "statement": "After any history of games, each node's visits and wins equal its initial values plus the counts of finished (not failed) games whose simulations passed through it, each game's path follows the most urgent children, and an interior node's visits are its children's plus those when it was a leaf.", "quantifier": "every history of games, in any completion order", "why_tests_cant": "All histories and completion orders.", "anchors": ["gomill/mcts_tuners.py:Tree", "gomill/mcts_tuners.py:Simulation"]}
{"id": "C42", "title": "Tuner scales stay in range", "statement": "The explicit scale always returns one of its values, never fails for an optimiser parameter in [0,1), and reaches every value; the linear scale maps [0,1] onto [lower,upper] monotonically, and with integer bounds its rounded version reaches only integers between them (rounding to the nearest for values that aren't negative).", "quantifier": "every scale and every optimiser parameter", "why_tests_cant": "All reals in the unit interval.", "anchors": ["gomill/mcts_tuners.py:Explicit_scale_fn", "gomill/mcts_tuners.py:Linear_scale_fn"]}
{"id": "C43", "title": "The cross-entropy tuner's generations are sound", "statement": "Every generation plays exactly batch_size samples of samples_per_generation candidates, each (candidate, round) once even across crashes; the elites are the candidates with most wins; the new distribution is the step-size-weighted mix of the old one and the elites' mean and variance, so (in exact arithmetic) means stay within the hull and variances non-negative.", "quantifier": "every history of results and crashes, every distribution", "why_tests_cant": "All histories and real parameters.", "anchors": ["gomill/cem_tuners.py:Cem_tuner", "gomill/cem_tuners.py:update_distribution"]}
{"id": "C44", "title": "Setting interpreters accept exactly the documented values", "statement": "The interpreters for True/False, integers, positive integers, board sizes (2 to 25), floats, strings, UTF-8 text, identifiers, colours, enumerations, callables, sequences, command lines and maps, and validate_handicap, accept exactly the documented values, give exactly the documented result (in particular the order and number of elements is kept, map items come out sorted by key), refuse everything else with ValueError (ControlFileError for handicaps), and leave an already interpreted value unchanged.", "quantifier": "every Python value (of the kinds considered), every board size and handicap", "why_tests_cant": "All values, including strings of any length and nested sequences.", "anchors": ["gomill/settings.py", "gomill/competitions.py:interpret_board_size", "gomill/competitions.py:validate_handicap"]}
{"id": "C45", "title": "Safe controller commands never propagate channel errors", "statement": "For any channel behaviour and any sequence of calls, safe_do_command, safe_known_command and safe_close never propagate a channel error, they send nothing once there has been a low-level error, nothing at all happens on the channel once the controller is closed, safe_close sends quit exactly if there was no low-level error and closes the channel exactly once, every error set aside (and nothing else) appears in retrieve_error_messages, and once known_command has answered for a command the engine is never asked about it again.", "quantifier": "every channel behaviour and every sequence of calls", "why_tests_cant": "The engine is an arbitrary adversary and histories are unbounded.", "anchors": ["gomill/gtp_controller.py:Gtp_controller"]}
{"id": "C46", "title": "Interpreting SGF property values fails only in the documented way", "statement": "For any property type and any non-empty list of raw values, interpreting either returns a value or raises ValueError, except that arrow, line, label and figure values without an unescaped colon raise TypeError (a departure from the documentation, proved); interpreted text is always valid UTF-8.", "quantifier": "every property type, every list of raw values, every board size and encoding", "why_tests_cant": "All byte strings.", "anchors": ["gomill/sgf_properties.py:Presenter.interpret"]}
{"id": "C47", "title": "Saving and loading an SGF game keeps it", "statement": "Every Sgf_game a program can build or load (without empty property identifiers) serialises, and from_string of the text gives a game of the same size whose tree of nodes has the same shape and, node by node, the same identifiers with the same raw values, without affecting other games; from_string of any text either gives the tree the text denotes or raises ValueError.", "quantifier": "every history of edits, every game, every line width, every text", "why_tests_cant": "All games and texts.", "anchors": ["gomill/sgf.py:Sgf_game.from_string", "gomill/sgf.py:Sgf_game.serialise", "gomill/sgf.py:Sgf_game.from_coarse_game_tree"]}
{"id": "C48", "title": "A game between GTP engines always ends properly", "statement": "Whatever two GTP engines answer, Gtp_game.run either ends with a result or raises the low-level error (or bad response) that stopped it; a failure response to genmove forfeits the game for that engine, a failure response to play means the mover loses if it says 'illegal move' and the refusing engine loses otherwise; each engine is told exactly the moves of the game in order and asked for a move exactly when it is its turn; low-level errors after the end of the game never escape; close_players closes both channels and collects every late error message.", "quantifier": "every pair of engines (arbitrary channel behaviour) and every game", "why_tests_cant": "The engines are arbitrary adversaries and games are unbounded.", "anchors": ["gomill/gtp_games.py:_Gtp_backend", "gomill/gtp_games.py:Gtp_game.run", "gomill/gtp_controller.py:Game_controller", "gomill/gtp_games.py:Gtp_game.close_players"]}
{"id": "C49", "title": "The MCTS tuner never reuses, loses or duplicates a game", "statement": "For every history of games begun, results, failures, saved statuses and restarts: no game number is in use twice at the same time, at most number_of_games games are begun, no game is begun after all have been, when no game is left every number has been finished exactly once, a finished game which was saved is never played again, the path of every result is the one chosen when its game was begun, an error stops the competition exactly if no game has succeeded since the start or the last error, failed games are not retried, and the tuner meets everything the ringmaster relies on.", "quantifier": "every history of games, failures, saves and restarts", "why_tests_cant": "All interleavings and crash points.", "anchors": ["gomill/mcts_tuners.py:Mcts_tuner.get_game", "gomill/mcts_tuners.py:Mcts_tuner.process_game_result", "gomill/mcts_tuners.py:Mcts_tuner.process_game_error", "gomill/mcts_tuners.py:Mcts_tuner.set_status"]}
{"id": "C50", "title": "load_settings gives values, defaults and errors as documented", "statement": "For every list of settings and every configuration, load_settings gives for each setting the interpreted value if the configuration has one (resolving Config_proxy objects), otherwise the default if defaults are applied, otherwise nothing if missing values are allowed; the first setting with a bad or missing value (in the order of the settings) stops it with a ValueError naming that setting; nothing else is in the result, and no interpreter gomill uses can be mistaken for a missing value.", "quantifier": "every list of settings, every configuration, every combination of apply_defaults and allow_missing", "why_tests_cant": "All settings lists and configurations.", "anchors": ["gomill/settings.py:load_settings", "gomill/settings.py:Setting", "gomill/settings.py:Config_proxy"]}
{"id": "C51", "title": "Arguments of Player, Matchup, Competitor and Parameter are resolved as documented", "statement": "resolve_arguments succeeds exactly if there are not too many positional arguments, every keyword argument is known, and none is also given by position; the result maps each argument's name to the value given by position or by name, and nothing else; otherwise it raises ValueError saying which of these failed and for which argument; get_key gives the first argument however it was given.", "quantifier": "every class of quiet configs, every list of positional and keyword arguments", "why_tests_cant": "All argument lists.", "anchors": ["gomill/settings.py:Quiet_config"]}
{"id": "C52", "title": "Players in a control file mean what is documented, and bad control files give ControlFileError", "statement": "The players of a competition are exactly those of the control file's 'players' dict, in order of code, each with the command line (split like a shell's if it is one string, the program's path resolved against the base directory if it contains a slash), working directory, environment, startup commands, aliases and flags that its Player(...) gives, or the documented defaults; it is refused exactly if some value is not acceptable. Every error in reading a playoff's, all-play-all's, CEM tuner's or MCTS tuner's control file is ControlFileError, except OverflowError for an integer too big for a float, and (MCTS tuner) OverflowError or ValueError for an infinite or nan komi.", "quantifier": "every control file namespace, every environment (shell splitting, home directories, base directory)", "why_tests_cant": "All control files.", "anchors": ["gomill/competitions.py:Competition.initialise_from_control_file", "gomill/competitions.py:Competition.game_jobs_player_from_config", "gomill/competitions.py:Competition.resolve_pathname"]}
{"id": "C53", "title": "A playoff's control file means what is documented", "statement": "A control file is accepted by Playoff exactly if its players, global settings, default handicap and matchups are acceptable, there is a matchup, and ids are distinct; each matchup has the settings given in its Matchup(...), else the global ones, else the documented defaults; it is numbered from 0 unless it has an id; a player who plays itself gets a copy with code '<code>#2'; what is accepted can always be played: ids are distinct, both players of every matchup exist and have different codes, board size, move limit and handicap are in range.", "quantifier": "every control file namespace", "why_tests_cant": "All control files.", "anchors": ["gomill/playoffs.py:Playoff.initialise_from_control_file", "gomill/playoffs.py:Playoff.matchup_from_config", "gomill/tournaments.py:Matchup", "gomill/tournaments.py:Tournament.make_matchup"]}
{"id": "C54", "title": "An all-play-all's control file means what is documented", "statement": "A control file is accepted by Allplayall exactly if its players and settings are acceptable and it lists from 1 to 702 different competitors who are players, each as a Competitor or just a code; the matchups are then all the pairs of competitors in order, with ids made from the competitors' letters (A to Z, AA to ZZ), all alternating, all with the same settings (without handicap) and 'rounds' games each.", "quantifier": "every control file namespace", "why_tests_cant": "All control files.", "anchors": ["gomill/allplayalls.py:Allplayall.initialise_from_control_file", "gomill/allplayalls.py:Allplayall.competitor_spec_from_config"]}
{"id": "C55", "title": "The tuners' control files mean what is documented", "statement": "A control file is accepted by Cem_tuner or Mcts_tuner exactly if its players, settings, opponent, parameters and make_candidate are acceptable: proportions strictly between 0 and 1, non-negative variances, komi not an integer for the MCTS tuner, a handicap the board size allows, at least one parameter, distinct parameter codes, transforms or scales and formats that work on the initial or middle value. The candidate made from engine parameters is the player that the control file's function describes. If those functions do not fail and the numbers are finite, the tuner can be run, in the sense of the tuners' other properties.", "quantifier": "every control file namespace, every transform, scale, format and make_candidate function", "why_tests_cant": "All control files and user functions.", "anchors": ["gomill/cem_tuners.py:Cem_tuner.initialise_from_control_file", "gomill/cem_tuners.py:Cem_tuner.parameter_spec_from_config", "gomill/mcts_tuners.py:Mcts_tuner.initialise_from_control_file", "gomill/mcts_tuners.py:Mcts_tuner.parameter_spec_from_config", "gomill/mcts_tuners.py:Mcts_tuner.make_candidate"]}
{"id": "C56", "title": "Startup checks check every player that is to play", "statement": "get_player_checks of a playoff gives exactly one check for each player with games to play, in order of code, with the board size and komi of the first matchup in which it plays; of an all-play-all, one for each competitor in order, with the settings of all the games (and raises IndexError if there is only one competitor).", "quantifier": "every accepted control file", "why_tests_cant": "All control files.", "anchors": ["gomill/playoffs.py:Playoff.get_player_checks", "gomill/allplayalls.py:Allplayall.get_player_checks"]}
{"id": "C57", "title": "The record of a game is the game", "statement": "make_sgf of a game runner, in any state, succeeds if its attributes can be written (UTF-8 comments, stones and moves on the board, a komi with at most 15 digits), and gives a new game whose root has exactly the documented properties (size, komi, application, result, handicap, date, setup stones), with one node for each move and its comment, the final message being added to the last node's comment; saving it and loading the file shows the same; get_setup_and_moves reads exactly the stones and moves; komi, handicap, winner and player names can be read from it. For a game that any two players played or broke off, it is a legal game from the position the game started from, and names its winner.", "quantifier": "every runner state, every game, every backend, every world of SGF objects, every line length", "why_tests_cant": "All games and all texts.", "anchors": ["gomill/gameplay.py:Game_runner.make_sgf", "gomill/sgf.py:Sgf_game.get_komi", "gomill/sgf.py:Sgf_game.get_handicap", "gomill/sgf.py:Sgf_game.get_winner", "gomill/sgf.py:Sgf_game.get_player_name", "gomill/sgf.py:Sgf_game.serialise"]}
{"id": "C58", "title": "Texts from engines are made safe, and describe the engine faithfully", "statement": "sanitise_utf8 always gives valid UTF-8, leaves valid UTF-8 unchanged, keeps every valid character of other texts and never empties a text. An Engine_description is made of what the engine answered to 'name', 'version' and (if known) 'gomill-describe_engine', failures counting as no answer and other errors being passed on; its clean version is the version without the engine's name, cut (if longer than 64 characters) before the usage texts of MoGo and Pachi or after the first word; the short and long descriptions consist of these, and are valid UTF-8 whatever bytes the engine sent. The one failure is an IndexError for a version of over 64 characters that is all white space.", "quantifier": "every byte string, every way of dividing bad bytes into characters, every engine and channel behaviour", "why_tests_cant": "All texts and all engines.", "anchors": ["gomill/utils.py:sanitise_utf8", "gomill/gtp_controller.py:Engine_description"]}
{"id": "C59", "title": "Startup checks of players", "statement": "check_player fails with CheckFailed exactly if the working directory is missing, the engine cannot be started, or the first of (protocol_version, each startup command, boardsize, clear_board, komi) that goes wrong does so with a failure response (for protocol_version: reports another version than 2) or a channel error; other errors are passed on. Each command is sent once, in this order, with aliases applied; if all went well, 'quit' is sent, the channel is closed once, and the messages set aside are the warnings. If the check fails, the channel is not closed.", "quantifier": "every player, every engine and channel behaviour", "why_tests_cant": "All engines.", "anchors": ["gomill/game_jobs.py:check_player", "gomill/gtp_controller.py:Gtp_controller"]}
{"id": "C60", "title": "Records of GTP games", "statement": "Gtp_game.make_sgf makes, for every game in any state whose texts are UTF-8, a new SGF game with the game's own record (see C57) plus the players' names (the engine's short description, or the player code if there is none), the game id as game name if it is not empty, and, if there is a result, a comment in the last node: the one-line description of the result ('x beat y B+3.5 (detail)', '... vs ... jigo'), followed by what each player reported as final score only if someone reported something else than the result (up to case and a trailing '.0'). For a game between two arbitrary engines, the only texts that can spoil the record are the reason of a forfeit and the reported scores; the record names the winner of the game and read back is the legal game that was played.", "quantifier": "every game, every pair of engines, every run, whatever text the engines send", "why_tests_cant": "All engine behaviours and texts.", "anchors": ["gomill/gtp_games.py:describe_scoring", "gomill/gtp_games.py:Gtp_game.make_sgf", "gomill/gtp_games.py:Game_result.describe"]}
{"id": "C61", "title": "SGF files of game jobs", "statement": "The file of a finished game job is written if and only if a directory and a filename are given, at their joined path; that of a job that was broken off only if there is a void directory and filename and at least one move. Every load of the file gives a game with the record of C60, in which game name and event are as the job says, each player is named by its code unless its name is to come from GTP, the root comment starts with the notes (event, id, date, result if there were moves, note, cpu times, descriptions of the engines) in that order, and the last node's comment ends with the error message and the late errors. A void game says 'Void' as its result and names no winner; a finished game names the winner of the game, and its moves are those that were played.", "quantifier": "every job, game, pair of engines and run; every world the file is loaded into", "why_tests_cant": "All games and texts.", "anchors": ["gomill/game_jobs.py:Game_job._make_sgf", "gomill/game_jobs.py:Game_job._record_game", "gomill/game_jobs.py:Game_job._record_void_game", "gomill/game_jobs.py:Game_job._write_sgf"]}
{"id": "C62", "title": "Running a game job", "statement": "Running a game job ends with a response, or JobFailed. Each engine's process is started with the player's command and directory, in an environment where the player's variables override those of the process and the game id and worker number override both. Each engine is asked for its protocol version and its description, then (aliases applied) given the startup commands, board size, clear_board, komi and the handicap, in that order; if that is cut short nothing follows except perhaps quit. When the job returns, every engine that was started has been closed exactly once; White's is not started if there was trouble with Black's. A response carries the job's id, the result of the game that was played on the job's terms (scorers, claims, komi, size, limit, handicap), missing CPU times filled in from the process unless the engine reported nonsense, a warning exactly for a forfeit, the errors in closing, and what each engine said about itself; the moves are a legal game and the file read back is that game. JobFailed gives the reason (equal codes, a process that can't start, wrong protocol version, failure or channel error of a named player, invalid handicap) plus the errors in closing; moves made so far are in the void file.", "quantifier": "every job, pair of engines (channels), process starter, environment and world", "why_tests_cant": "Any engine can fail at any point of the conversation.", "anchors": ["gomill/game_jobs.py:Game_job.run", "gomill/game_jobs.py:Game_job._run", "gomill/game_jobs.py:Game_job._start_player", "gomill/game_jobs.py:Player.make_environ", "gomill/gtp_controller.py:Game_controller.set_player_subprocess", "gomill/gtp_controller.py:Game_controller.set_player_controller"]}
{"id": "C63", "title": "Saving a game with gomill-savesgf and loading it back", "statement": "In an engine's game with at least one move, gomill-savesgf succeeds if the file can be written and leaves the state alone. The file, loaded by any program, is a game without variations whose root shows the board size, komi, handicap, program, date, the stones of the position the moves start from, the options given (name=value arguments, the name in either case, backslash and blank coded as the command says; the last counts), PL exactly if the first player is unexpected or there are stones other than a handicap's, and nothing else; the other nodes are the moves, in order, with their comments. Loading it with loadsgf into any engine that accepts the size restores the position, moves, komi (below 0.0001 reads as 0) and handicap. A malformed argument is refused as invalid, a failed write is reported, and nothing is written then.", "quantifier": "every state an engine can reach, every set of options, every engine it is loaded into", "why_tests_cant": "States, comments and options are unbounded, and the round trip crosses setup, moves, escaping, wrapping and parsing.", "anchors": ["gomill/gtp_states.py:Gtp_state.handle_savesgf", "gomill/gtp_states.py:Gtp_state.handle_loadsgf", "gomill/sgf_moves.py:set_initial_position", "gomill/sgf_moves.py:indicate_first_player"]}
{"id": "C64", "title": "A proxy engine answers as its back end does", "statement": "Setting a proxy's back end asks it once for its commands; the proxy's engine then has exactly those and five of its own, or BackEndError gives the reason. A command that the back end has and the proxy doesn't override is sent to it exactly once with the same arguments, and its response, success or failure, is passed on; a low-level error gives a failure response with the reason and ends the session. gomill-passthrough does that for any command. quit is passed on and ends the session. Any session on a proxy, over pipes or in process, in which list_commands, gomill-passthrough and overridden commands aren't used, gets exactly the bytes that the back end itself would have written. run closes the connection exactly once, at the end, sending quit before it if and only if the session didn't end by quit or a low-level error, and raises BackEndError exactly for trouble in closing.", "quantifier": "every back end (any channel, any engine), every input, every set of customised commands", "why_tests_cant": "Sessions are unbounded and the back end can answer or fail at any point.", "anchors": ["gomill/gtp_proxy.py:Gtp_proxy.set_back_end_controller", "gomill/gtp_proxy.py:Gtp_proxy.handle_command", "gomill/gtp_proxy.py:Gtp_proxy.handle_quit", "gomill/gtp_proxy.py:Gtp_proxy.handle_passthrough", "gomill/gtp_proxy.py:Gtp_proxy.run", "gomill/gtp_proxy.py:Gtp_proxy.close"]}
{"id": "C65", "title": "Text tables are laid out as documented", "statement": "Table.render() of a table with at least one row (if it has columns), whose headings cover existing columns, succeeds; its first line shows every heading at the position where its first column starts, its other lines show the rows that aren't blank, in order, each cell aligned left or right within its column, columns separated by their right padding and everything else blank; columns are just wide enough for their cells, except that the first column of a heading is widened when the heading needs it, so that headings never run into each other; no line has trailing white space. This determines the output completely. Reading the lines back by splitting them at white space gives exactly the words of the headings and of the cells, left to right and top to bottom. All other tables raise the exception given by the theorem.", "quantifier": "all numbers of rows and columns, all headings and spans, alignments, paddings and cell texts", "why_tests_cant": "widths depend on every cell and heading at once; tests check a few tables with fixed contents", "anchors": ["gomill/ascii_tables.py: Column_spec, Table.add_heading, add_column, get_column, set_column_values, render"]}
{"id": "C66", "title": "The reports on tournaments say what the games were", "statement": "For every tournament state reached by a history of games, results, errors, reports, saves and restarts (with control files that may change), in which a matchup id is always used for the same two players and player codes are words: the screen and short reports of playoffs and all-play-alls are written without an error. The report on a matchup names it, counts its games (of the number expected), the games without a result with their percentage, gives board size, handicap and komi, and a table whose lines read: the players' codes; their points (2 per win, 1 per jigo, halved) and the percentage rounded to two places; the same for the games with Black and with White and a line of the totals per colour if both colours occur, else the players' colours; the forfeits, if any; the mean of the known cpu times, if any isn't zero. Playoff reports give the matchups that have results in control file order, then those no longer in the control file, sorted by id, then the players' descriptions, sorted by code. The all-play-all report says how many games were played and expected, and shows a table with the competitors' codes and the score of each competitor against each other in their matchup.", "quantifier": "all histories of tournaments, all results, cpu times, numbers of games, players and competitors, all names and descriptions, either rounding of exact ties", "why_tests_cant": "what the tables contain depends on combinations of colours, jigos, forfeits, unknown results and missing times over all the games; tests compare a few fixed reports", "anchors": ["gomill/tournament_results.py: make_matchup_stats_table, write_matchup_summary, Matchup_stats, describe_details", "gomill/tournaments.py: write_matchup_report, write_matchup_reports, write_ghost_matchup_reports, write_player_descriptions", "gomill/playoffs.py: write_screen_report, write_short_report", "gomill/allplayalls.py: write_screen_report, write_short_report, count_games_played", "gomill/utils.py: format_float, format_percent"]}
{"id": "C67", "title": "A game is saved in the encoding its CA property names, or refused for the documented reason", "statement": "from_string reads a game under the encoding given by the caller, or else the one its CA property names, or else ISO-8859-1; with an encoding given, CA is changed to its normal name and nothing else. get_charset returns the normal name whatever alias CA uses, and raises ValueError for an unknown one. serialise writes the raw values unchanged if CA names the encoding they are in; otherwise it raises UnicodeDecodeError exactly if some value in the tree is improperly encoded, else UnicodeEncodeError exactly if some value cannot be represented in the target encoding, and else writes the whole text in the target encoding. What it writes loads again (picking the encoding by itself) as a game of the same size with the same tree, in which every property value reads the same as before.", "quantifier": "all reachable games and trees, all property values, all codec aliases, the encodings UTF-8, ISO-8859-1 and ASCII for both sides, all line widths", "why_tests_cant": "improperly encoded or unrepresentable values can be anywhere in any tree, and that transcoding the whole text does not disturb escapes, brackets and line breaks must hold for all values", "anchors": ["gomill/sgf.py:Sgf_game.serialise", "gomill/sgf.py:Sgf_game.get_charset", "gomill/sgf.py:Sgf_game.from_string", "gomill/sgf.py:Sgf_game.from_coarse_game_tree", "gomill/sgf_properties.py:normalise_charset_name", "gomill/sgf_properties.py:Presenter.__init__"]}
{"id": "C68", "title": "Building a loaded game's tree on demand cannot be noticed", "statement": "from_string makes only the root node; the rest of the tree is built when the root's children are first looked at (len, indexing, index, new_child, get_main_sequence, get_main_sequence_below, get_last_node, serialise), and by nothing else. Whatever sequence of edits and queries a program performs, on any number of loaded and new games, every result and every exception is the one it would get if the whole tree were built at load time; properties set through the nodes of main_sequence_iter before the tree is built are seen in the tree afterwards. main_sequence_iter provides the main line as it was when it was created, or raises AttributeError when it is first advanced, the latter exactly if the tree was built between its creation and that moment.", "quantifier": "all histories of operations and queries of any length over any number of games, all texts, all points of time at which trees get built", "why_tests_cant": "the interleavings of edits, queries and the moment at which each game is built are unbounded; a test fixes one of them", "anchors": ["gomill/sgf.py:_Unexpanded_root_tree_node", "gomill/sgf.py:Sgf_game.main_sequence_iter", "gomill/sgf.py:Sgf_game.from_coarse_game_tree", "gomill/sgf_grammar.py:make_tree", "gomill/sgf_grammar.py:main_sequence_iter"]}
{"id": "C69", "title": "Where a competition keeps its files, and what a reset deletes", "statement": "A ringmaster's files lie beside the control file, under its name with the extension replaced; a control file whose extension is one of the ringmaster's own is refused. The eight generated pathnames differ from each other and from the control file's. Two competitions' pathnames overlap only if their control files are in the same directory and have the same name but for the extension, and then all coincide. Reset deletes only the competition's own files and what is inside its own directories, and all of these that the operating system lets it delete; the control file and everything else stays, and a run after it starts afresh. The competition type is what the first line that is neither blank nor a comment declares, and a control file is refused unless that line is a declaration of one of the four types.", "quantifier": "all control file pathnames, all pairs of them, all file system contents, all patterns of failing deletions, all control file texts", "why_tests_cant": "the pathnames, file systems and texts are unbounded, and a clash between two competitions only shows on particular names", "anchors": ["gomill/ringmasters.py:Ringmaster.__init__", "gomill/ringmasters.py:Ringmaster.delete_state_and_output", "gomill/ringmasters.py:Ringmaster._parse_competition_type", "gomill/ringmasters.py:Ringmaster._get_competition_class"]}
{"id": "C70", "title": "Several ringmaster processes on one competition", "statement": "Any number of ringmaster processes (run, stop, reset, show) may work on one competition at the same time, their system calls interleaved in any way, each crashing at any point. Two runs are active together only if a reset removed the log file one of them had opened; without resets there is at most one. A run that hasn't the lock changes nothing but creating the log file, and a refused run does nothing more. A run halts on a stop command only if that was given since the run began, and starts no game after halting; a stop command given since the run began, once finished, keeps the run from starting further games unless another stop command follows. Show reports exactly the last saved state. Saved results are never lost as long as no state is saved while another run is between loading the state and taking the lock; a counted result is saved before the run does anything else.", "quantifier": "all numbers of processes, all interleavings of their system calls, all crash points, all outcomes of games", "why_tests_cant": "the interleavings and crash points are unbounded; a test exercises a few of them", "anchors": ["gomill/ringmaster_command_line.py:do_run", "gomill/ringmasters.py:Ringmaster._open_files", "gomill/ringmasters.py:Ringmaster.write_command", "gomill/ringmasters.py:Ringmaster._get_job", "gomill/ringmasters.py:Ringmaster._write_status", "gomill/ringmasters.py:Ringmaster.delete_state_and_output"]}
{"id": "C71", "title": "The log and the display of a run", "statement": "In every run of the ringmaster, whatever games are asked for, finish, fail or are void and however the run ends: the log says at most once that the run halts, no game is started after that, and no more games are started than asked for; every warning is shown at once and in order, on standard error in quiet mode (where nothing else is shown) and otherwise on standard output; each screen says exactly which games are in progress by the log, why the run is halting or how many games it may still start, how many games were void, the competition's report, the last six results and the last four warnings; and a run that ends early logs which games were in progress.", "quantifier": "all competitions, all sequences of requests, responses and errors, all contents of the command file, all limits on games, quiet or not, any number of workers", "why_tests_cant": "the claims relate the whole history of a run to every screen it shows; tests sample short runs", "anchors": ["gomill/ringmasters.py:Ringmaster.run", "gomill/ringmasters.py:Ringmaster.get_job", "gomill/ringmasters.py:Ringmaster._get_job", "gomill/ringmasters.py:Ringmaster.process_response", "gomill/ringmasters.py:Ringmaster.process_error_response", "gomill/ringmasters.py:Ringmaster._update_display", "gomill/ringmasters.py:Ringmaster.log", "gomill/ringmasters.py:Ringmaster.warn", "gomill/ringmaster_presenters.py:Clearing_presenter", "gomill/ringmaster_presenters.py:Quiet_presenter", "gomill/ringmaster_presenters.py:Box"]}
{"id": "C72", "title": "The ringmaster command", "statement": "Whatever the outside world does (files missing, unreadable or corrupt, players that fail, exceptions or keyboard interrupts at any call), the 'ringmaster' command makes the calls of its command's plan in order and stops at the first failure; wrong arguments give status 2 and nothing is done; otherwise the status is 0, 1, 3 or 4: 3 exactly for a keyboard interrupt, 1 with one message for every error of the user's (all failures of the control file and the status file among them) or a failed player check, 4 for bugs, 0 only if everything was done. Games are played only after all player checks passed (or are to be skipped), with the options given, and after a saved state of the right version was loaded or there was none; only 'run' plays games, only 'stop' writes the command file, only 'reset' deletes. Standard output says exactly which players were checked and failed.", "quantifier": "all command lines after option parsing, all behaviours of the outside world depending on the whole history, all exceptions at all calls", "why_tests_cant": "there are unboundedly many combinations of failures; tests try a few of them", "anchors": ["gomill/ringmaster_command_line.py:run", "gomill/ringmaster_command_line.py:do_run", "gomill/ringmasters.py:Ringmaster.__init__", "gomill/ringmasters.py:Ringmaster._load_control_file", "gomill/ringmasters.py:Ringmaster.load_status", "gomill/ringmasters.py:Ringmaster.set_clean_status", "gomill/ringmasters.py:Ringmaster.check_players", "gomill/ringmasters.py:Ringmaster.run", "gomill/ringmasters.py:Ringmaster.write_command", "gomill/ringmasters.py:Ringmaster.print_status"]}
{"id": "C73", "title": "What the MCTS tuner says", "statement": "After any history of games finishing or failing in any order, wrong responses, saving the status and restarting, the tuner's reports can be written, and they say what follows from the finished games: the number of games, the parameters of the node reached by following the children with most wins, for each depth in the summary specification the nodes with most games (the first ones on ties) in order with their coordinates, parameters, win rate (with the initial values) to three places and number of games, the games in progress in order of number up to the limit, and the opponent with the description from the last game that had one (kept over restarts as of the last save). A game's result is logged with its parameters, steps and outcome, followed by a dump of the tree to depth two after every log_tree_to_history_period games; the note in its game record shows the values its candidate was made with. A value that the format fails for is shown as [code?value].", "quantifier": "all trees, parameter spaces, scales and formats, all histories of calls with saves and restarts, all report settings", "why_tests_cant": "the selection, order and figures must be right for all trees and histories; tests show one small tree", "anchors": ["gomill/mcts_tuners.py:Tree.describe", "gomill/mcts_tuners.py:Tree.summarise", "gomill/mcts_tuners.py:Simulation.describe", "gomill/mcts_tuners.py:Mcts_tuner.format_engine_parameters", "gomill/mcts_tuners.py:Mcts_tuner.process_game_result", "gomill/mcts_tuners.py:Mcts_tuner.write_screen_report", "gomill/mcts_tuners.py:Mcts_tuner.write_short_report", "gomill/mcts_tuners.py:Mcts_tuner._write_main_report"]}
{"id": "C74", "title": "What the cross-entropy tuner says", "statement": "After any history of games finishing or failing in any order, wrong responses, saving the status and restarting, the tuner's reports can be written, and they give the number of the present generation, each candidate's points in its finished games of this generation (not those of lost games), and the present distribution with the engine parameters for its means, as the final one if all generations are finished. The history gets an entry exactly when a generation is finished: the distribution its candidates came from and all candidates with parameters and points, best first, with exactly the elites (those the next distribution is learned from) marked. A generation is logged as starting when a game is asked for and none of it is finished or in progress. The note in a game record shows the values its candidate's player was made from.", "quantifier": "all usable control files (any transforms, formats and maker), all random numbers, all histories of calls with saves and restarts", "why_tests_cant": "the figures must follow from all finished games over crashes and restarts, and the order and marks must be right for all distributions of points; tests show one small generation", "anchors": ["gomill/cem_tuners.py:Distribution.format", "gomill/cem_tuners.py:Cem_tuner.format_distribution", "gomill/cem_tuners.py:Cem_tuner.format_generation_results", "gomill/cem_tuners.py:Cem_tuner.finish_generation", "gomill/cem_tuners.py:Cem_tuner.write_screen_report", "gomill/cem_tuners.py:Cem_tuner.write_short_report", "gomill/cem_tuners.py:Cem_tuner.get_game", "gomill/cem_tuners.py:Cem_tuner.process_game_result"]}
{"id": "C75", "title": "Showing a position from an SGF file", "statement": "The show_sgf example prints something exactly if the file holds a game on a board of 2 to 25 rows with a legal setup whose moves before the given one (all, if none is given) can be played, and it prints the diagram of the position after them by the rules of Go (later moves don't matter). Otherwise it prints nothing and says why: not an SGF game, a setup or main line that can't be used, or a move on an occupied point. Different positions have different diagrams.", "quantifier": "all file contents, all move numbers (also negative or too big), all sets of known encodings", "why_tests_cant": "the outcome depends on the whole file and position; there are no tests for it", "anchors": ["gomill_examples/show_sgf.py:show_sgf_file", "gomill/ascii_boards.py:render_board", "gomill/sgf_moves.py:get_setup_and_moves"]}
{"id": "C76", "title": "Splitting an SGF collection keeps every game", "statement": "The split_sgf_collection example writes the games of the collection in order, to files root_number.ext in the directory of the source, which have different names, all different from the source's. Each file parses to the same tree with the same properties as the game in the collection, except that the root's comment has 'Split from ... (game n)' added after what was there. It stops at the first game with a bad board size, more than one or an undecodable comment, an encoding that can't express the note, or a file that can't be opened; all games before that are written, and if it reports no error, all games are. A text that's not a collection gives no file.", "quantifier": "all source texts, pathnames, sets of known encodings, sets of files that can be opened", "why_tests_cant": "it must hold for all trees, encodings and names; there are no tests for it", "anchors": ["gomill_examples/split_sgf_collection.py:split_sgf_collection", "gomill/sgf_grammar.py:parse_sgf_collection", "gomill/sgf.py:Sgf_game.from_coarse_game_tree", "gomill/sgf.py:Tree_node.add_comment_text", "gomill/sgf.py:Sgf_game.serialise"]}
{"id": "C77", "title": "The keyboard stop reads the terminal only when it may, and restores it", "statement": "Initialising the terminal reader raises nothing unless interrupted; it is enabled exactly if there's a terminal whose attributes can be found, and then holds those attributes and the same with line buffering off and zero minimum. A check says that a stop was requested exactly if the process leads the terminal's foreground group, the attributes could be set and restored, and ^X was in the waiting input, which was then read to its end. In the background it neither reads nor changes the terminal; a disabled reader makes no call at all. After a change of attributes succeeded they are restored whatever happens while reading, so after any number of checks the terminal is as before, unless restoring failed or a signal came right after a change.", "quantifier": "all terminals, attributes, outcomes of each system call, inputs and numbers of checks", "why_tests_cant": "it must hold whichever call fails, and at each point of interruption; there are no tests for it", "anchors": ["gomill/terminal_input.py:Terminal_reader"]}
{"id": "C78", "title": "The CLOP connection script tells CLOP who won the game it asked for", "statement": "'gomill-clop ... run-game' prints exactly one line whatever happens: W, L or D with exit status 0, or Error with another. With status 0 exactly one game was run: between the opponent and the player that make_candidate made from the values on the command line (read in the order and under the names of the control file), with the candidate's colour, the seed as game id, all settings of the control file and the files of the competition; W means the candidate won, L the opponent, D a jigo, or no result if stop_on_error is set. Whatever fails, no other game is run, and the status is 1, 3 or 4 by the exception and the call; if no call fails, it's 0 but for listed reasons. 'setup' prints nothing; if it succeeds the .clop file has one line for each parameter and processor and the directories are there. The parameters of a control file are accepted exactly if there are some, all load, integer ones have whole bounds and codes differ.", "quantifier": "all command lines, control files, outcomes of every outside call (any exception at any point), engines' results", "why_tests_cant": "it must hold for all points of failure and all parameter lists; there are no tests for the script", "anchors": ["gomill_examples/gomill-clop", "gomill/ringmasters.py:Ringmaster._prepare_job", "gomill/ringmasters.py:Ringmaster.warn"]}
{"id": "C79", "title": "The kgsGtp proxy saves every game in a new file under the right name", "statement": "kgs_proxy asks the engine for its commands, whether it can save games (if it is to save them) and its name and version, and nothing else, or ends with a message that has the reason. Whatever commands follow, kgs-game_over sends the engine exactly one gomill-savesgf command: the file is the first of the template that isn't in the directory (with the usual template there is one while the directory has fewer than 10000 files), and the option names the engine (name and shortened version) for the colour of the last genmove that had one. The response is an empty success even if the engine can't save, and what went wrong is logged; if the directory can't be read, or the names have run out, nothing is sent and the response is an error. The session never ends because of it. Without a directory nothing happens. genmove passes its arguments on once and gives the engine's move.", "quantifier": "all engines and channels (with any errors), sequences of commands, contents of the directory at any time, templates, names and versions", "why_tests_cant": "it must hold for all histories of commands and changes to the directory; there are no tests for the script", "anchors": ["gomill_examples/kgs_proxy.py", "gomill/gtp_proxy.py:Gtp_proxy"]}
{"id": "C80", "title": "twogtp plays the games it was asked for, reports and saves each once, and closes the engines", "statement": "twogtp with two commands starts both engines (told apart by codes), finds out about them, and plays the games one after the other with the same engines: before each game both engines are told the size, to clear the board and the komi. For each game that was played exactly one line is printed, with its result; with --sgfbase there is one file per game, numbered from 000, and whoever loads it sees the game with its players, moves and winner. Each game is legal with at most 1000 moves. After the last game both engines are closed, once, and the errors in closing are reported. If a player can't be set up or a game breaks off because of an engine, a message says why and all engines that were started are closed. Usage errors start no engine.", "quantifier": "all engines (with any responses and channel errors), commands, options, numbers of games, and failures to start processes or write files", "why_tests_cant": "it must hold for all engines and all histories of games; there are no tests for the script", "anchors": ["gomill_examples/twogtp", "gomill/gtp_games.py:Gtp_game", "gomill/gtp_controller.py:Game_controller"]}
{"id": "C81", "title": "The results API gives exactly the recorded results; find_forfeits lists every forfeited game once", "statement": "Ringmaster.get_tournament_results() lists the matchups in control-file order; for every matchup id it gives exactly the results recorded for that matchup, in order, however often results are read; it describes and counts exactly the matchups of the control file and raises KeyError for others. find_forfeits.py on the status left by a tournament prints one line per forfeited game recorded in a matchup of the control file, in order, naming the matchup, the player who lost and the game's SGF file; if the status doesn't fit the control file it prints no line and exits with 1; it never writes any file.", "quantifier": "all tournament histories (games, errors, saves, crashes and restarts with changed control files), all control files and all failures to read files", "why_tests_cant": "it must hold for every history and every failure of reading; the script has no tests", "anchors": ["gomill/tournament_results.py:Tournament_results", "gomill/ringmasters.py:get_tournament_results,get_sgf_filename,load_status", "gomill/tournaments.py:get_tournament_results", "gomill/gtp_games.py:losing_player", "gomill_examples/find_forfeits.py"]}
{"id": "C82", "title": "What a controller makes of any program at the other end of its pipes", "statement": "Whatever bytes a subprocess sends, and whether it then closes its output, falls silent or its pipe breaks, get_response gives exactly one outcome: lines with nothing to see are skipped; the lines up to the next empty line (or end of output) are the response, with control characters ignored, tabs as spaces and white space around it dropped, a failure exactly if it begins with '?' and a GtpProtocolError exactly if it begins with neither '=' nor '?'; the next response is read from where this one ended. A program whose very first byte can't begin a response is found out without waiting for a line. The controller waits for ever only if the program's output neither ends nor completes a response. close always closes both pipes and waits for the process, and raises exactly if something failed.", "quantifier": "all byte strings from the program, all ways in which the output can end, all sequences of requests, all errors from the operating system on reading, writing, closing and waiting", "why_tests_cant": "the byte strings that an arbitrary program may send, and the ways in which pipes can fail, can't be enumerated", "anchors": ["gomill/gtp_controller.py:Linebased_gtp_channel,Subprocess_gtp_channel"]}
{"id": "C83", "title": "The ringmaster's live display, to the byte", "statement": "Whatever messages are given to the channels of a Clearing_presenter and whenever channels are cleared, refresh writes a separator, then status, screen report, results and warnings, each from the messages given to the channel since it was last cleared (the last 6 results, the last 4 warnings), in order. The command clear is run exactly when standard output is a terminal and the command has never failed; if it ever failed, 82 newlines are written; if standard output isn't a terminal, a line of dashes. Warnings also appear at once, other messages don't. A stream given by get_stream is one message less one trailing newline. The quiet presenter writes warnings to standard error and nothing else. refresh raises (TypeError) exactly if LINES is set, standard output is a terminal and clear has failed.", "quantifier": "all sequences of clear, say and refresh on all channels, all messages, all outcomes of each run of clear, terminal or not, LINES set or not", "why_tests_cant": "histories of display operations and outcomes of the clear command are unbounded; the presenters have no tests", "anchors": ["gomill/ringmaster_presenters.py:Presenter,_Channel_writer,Quiet_presenter,Box,Clearing_presenter"]}
{"id": "C84", "title": "The mogo wrapper answers version and boardsize itself and passes on the rest", "statement": "mogo_wrapper runs mogo only if its first parameter is --9, --13 or --19. Before the session mogo is asked for its commands and told the board size, once each; if it can't be launched, fails, or refuses the size there is no session. At any time in a session, boardsize succeeds exactly for that size, version always gives '2007 public release', and mogo isn't told about either; any other command of mogo that isn't the proxy's own is sent to mogo once as given, and the answer (success, failure or low-level error) is relayed.", "quantifier": "all command lines, all back ends (any channel, any answers and errors), all sequences of commands in a session", "why_tests_cant": "it must hold for every back end and every session; the script has no tests", "anchors": ["gomill_examples/mogo_wrapper.py:main,handle_version"]}
{"id": "C85", "title": "The test player answers as its history says, and its errors are seen as such", "statement": "A session with gtp_test_player is determined by the commands sent before: genmove passes, except that the error set by the last readable gomill-delayed_error comes with the first genmove which is move number n or later (n not 0; a negative n at once), counting every genmove and play of the session (clear_board doesn't start again), and only once; an unreadable number leaves the earlier setting. The errors are a failure response, a failure which ends the session, an internal error, the death of the process without a response, or an ill-formed line before an otherwise normal response. gomill-force_error does the same at once. A controller reports the ill-formed line as a protocol error that quotes it and reads the next response right; after the death it reports a closed channel.", "quantifier": "all sequences of commands with any arguments", "why_tests_cant": "the error waiting depends on the whole history; the script has no tests of its own", "anchors": ["gomill_examples/gtp_test_player:Test_player,make_engine", "gomill/gtp_controller.py:get_response"]}
{"id": "C86", "title": "The random player plays each empty point alike, or resigns as told", "statement": "In every session of gtp_stateful_player (without loadsgf), genmove resigns exactly if the random number is below the probability in force (0.1 at first, then what gomill-resign_p last set: never for 0 or less, always for 1 or more); otherwise it plays on one of the empty points, every one of which is chosen for the same share of the random choices, the board and history changing by that move alone, and gomill-explain_last_move then tells the number of choices; if the board is full it fails with an internal error. reg_genmove chooses likewise and changes nothing. The board sizes are 9, 13 and 19. Every other command is that of the game state (C37, C38) or changes nothing.", "quantifier": "all sessions, all random numbers, all arguments, all orders of Python's sets", "why_tests_cant": "it must hold in every position and for every random number; the script has no tests", "anchors": ["gomill_examples/gtp_stateful_player:Player,make_engine", "gomill/gtp_states.py:get_handlers"]}
{"id": "C87", "title": "Dying workers and shutting down: no job twice, nothing reported that wasn't run, no worker left behind", "statement": "With multiprocessing, at whatever points worker processes die: each job obtained from the job source is queued, being run, has been run once or was lost with the worker that died; none is run again, and the job source is told the outcomes of the jobs that were run, once each, in the order in which they ended. If run_jobs returns, no job was lost and every outcome has been processed. Whether it returns or raises, no worker process is left running; and unless a worker died, all jobs obtained, even those still queued when the job source raised an exception, have been run by then. It always goes on to its end, except that it waits for ever for the outcome of a lost job, or for dead workers.", "quantifier": "all job sources, all jobs, all numbers of workers, all orders of events, all points at which workers die, all exceptions", "why_tests_cant": "the tests use the in-process manager or two workers that don't die; the claims range over interleavings and crash points", "anchors": ["gomill/job_manager.py:Multiprocessing_job_manager,worker_run_jobs,run_jobs"]}
{"id": "C88", "title": "GTP sessions when the controller goes away, and interactive sessions", "statement": "In every GTP session the controller gets the framed responses to its commands, in order, until the engine ends the session, the input ends or a response can't be written; in the last case the engine has handled the commands up to that one, and ControllerDisconnected is raised if and only if the pipe was broken (another IOError comes out as it is). An interactive session, with or without readline, gives the same responses and the same states for the same lines. After one that returns, readline's completer and delimiters are as before and the history file holds the history (its own, and the lines read), if it can be written. Tab completion offers exactly the engine's commands that begin with the text, in order, each once, followed by a space.", "quantifier": "all engines and handlers, all inputs, all points at which a write fails, all terminals and history files, all texts and completion states", "why_tests_cant": "the tests drive sessions with a few fixed inputs and never use readline; it must hold for all handlers, inputs and failure points", "anchors": ["gomill/gtp_engine.py:_run_gtp_session,run_gtp_session,make_readline_completer,run_interactive_gtp_session,ControllerDisconnected"]}
