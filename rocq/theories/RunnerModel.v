(** * Running queries and computing exit codes

    nca/NetworkConfig/NetworkConfigQueryRunner.py, nca/SchemeRunner.py and the second half of nca/nca_cli.py.

    Simplifications: configurations are an abstract type [Cfg] and the result of running one query object on
    configurations is a parameter ([None]: an exception); printing and writing files are left out; the text printed to
    describe mismatches is left out; [string]s are sequences of bytes, so that only ASCII white space is white space and
    newlines in files are "\n". *)
From Coq Require Import ZArith List Bool Arith Lia String Ascii.
From Verif Require Import QueryModel.
Import ListNotations.
Local Open Scope string_scope.
Local Open Scope list_scope.
Local Open Scope nat_scope.

(** ** One execution of a query *)
(** What execute_and_compute_output_in_required_format returns (numerical result, output, not executed), and whether
    running it set output_config.fullExplanation (the object is shared with the runner, NetworkConfigQuery.py:250, 295,
    377, 784, 1365, 1742). *)
Record iteration := Iter { i_num : Z; i_out : string; i_skip : bool; i_full : bool }.

(** execute_and_compute_output_in_required_format, NetworkConfigQuery.py:60-99.  [nopeers]: some configuration of the
    query has no peers; [unsupported]: the output format is not one of the query's; [sets_full]: the query's exec assigns
    fullExplanation; [msg]: the error text; [run]: numerical result, output and not-executed flag of exec. *)
Definition execute_in_format (nopeers unsupported sets_full : bool) (msg : string) (run : option (Z * string * bool))
  : option iteration :=
  if nopeers then Some (Iter 0 msg true false)
  else if unsupported then Some (Iter 0 "" true false)
  else match run with
       | Some (n, o, s) => Some (Iter n o s sets_full)
       | None => None
       end.

(** QueryResult, NetworkConfigQueryRunner.py:17-37. *)
Record qresult := QResult { r_num : Z; r_outs : list string; r_skipped : Z; r_full : bool }.
Definition q0 (full : bool) : qresult := QResult 0 [] 0 full.
Definition update (q : qresult) (i : iteration) : qresult :=
  QResult (r_num q + i_num i) (r_outs q ++ [i_out i]) (r_skipped q + bz (i_skip i)) (r_full q || i_full i).
(** The iterations are run one after the other; the first exception stops the run. *)
Fixpoint run_all (q : qresult) (l : list (option iteration)) : option qresult :=
  match l with
  | [] => Some q
  | Some i :: l => run_all (update q i) l
  | None :: _ => None
  end.

(** compute_final_results for the formats other than json and yaml, NetworkConfigQueryRunner.py:39-58. *)
Definition nl : string := String "010"%char "".
Definition joined (outs : list string) : string := String.concat nl outs.

(** ** Which configurations a query is run on *)
Inductive qtype := SingleConfig | ToBase | PairComparison | AllPairs.
Section Configs.
Context {Name : Type} (name_eqb : Name -> Name -> bool).
(** _run_query_on_configs_vs_base_config, NetworkConfigQueryRunner.py:180-186. *)
Definition base_pairs (l : list Name) : list (Name * Name) :=
  match l with [] => [] | b :: l => map (fun c => (c, b)) l end.
(** _run_query_on_config_vs_followed_configs, NetworkConfigQueryRunner.py:188-196; range(a, b) is [seq a (b - a)]. *)
Definition followed_indices (n : nat) : list (nat * nat) :=
  flat_map (fun i => map (fun j => (i, j)) (seq (i + 1) (n - (i + 1)))) (seq 0 (n - 1)).
Definition followed_pairs (l : list Name) : list (Name * Name) :=
  flat_map (fun ij => match nth_error l (fst ij), nth_error l (snd ij) with
                      | Some a, Some b => [(a, b)] | _, _ => [] end) (followed_indices (List.length l)).
(** _run_query_on_all_pairs, NetworkConfigQueryRunner.py:198-206. *)
Definition all_pairs (l : list Name) : list (Name * Name) :=
  flat_map (fun a => flat_map (fun b => if negb (name_eqb a b) then [(a, b)] else []) l) l.
Definition pairs_of (t : qtype) (l : list Name) : list (Name * Name) :=
  match t with
  | ToBase => base_pairs l | PairComparison => followed_pairs l | AllPairs => all_pairs l | SingleConfig => []
  end.
End Configs.

(** ** Comparison with a file *)
Fixpoint split_nl (s : string) : list string :=
  match s with
  | EmptyString => [""]
  | String c s => if Ascii.eqb c "010" then "" :: split_nl s
                  else match split_nl s with [] => [String c ""] | l :: ls => String c l :: ls end
  end.
(** str.rstrip: the ASCII characters for which str.isspace holds. *)
Definition is_space (c : ascii) : bool :=
  let n := nat_of_ascii c in ((9 <=? n) && (n <=? 13)) || ((28 <=? n) && (n <=? 32)).
Fixpoint rstrip (s : string) : string :=
  match s with
  | EmptyString => ""
  | String c s => match rstrip s with
                  | EmptyString => if is_space c then "" else String c ""
                  | t => String c t
                  end
  end.
(** Iterating over an open text file gives its lines; a final newline does not start another line.  (The newlines at the
    end of the lines are left out: the lines are rstripped before being looked at.) *)
Definition file_lines (text : string) : list string :=
  match text with EmptyString => [] | _ =>
    let l := split_nl text in match last l "x" with EmptyString => removelast l | _ => l end
  end.
(** The loop of _compare_actual_vs_expected_output, NetworkConfigQueryRunner.py:216-227: [None] is "return 1", otherwise
    the value of golden_file_line_num after the loop. *)
Fixpoint golden_loop (i num : nat) (golden actual : list string) : option nat :=
  match golden with
  | [] => Some num
  | g :: golden =>
    if List.length actual <=? i then None
    else if negb (String.eqb (rstrip g) (nth i actual "")) then None
    else golden_loop (i + 1) i golden actual
  end.
(** NetworkConfigQueryRunner.py:211-234, neither creating nor updating files. *)
Definition compare_output (golden actual : list string) : Z :=
  match golden_loop 0 0 golden actual with
  | None => 1%Z
  | Some num =>
    if negb (num =? List.length actual - 1) then
      if existsb (fun i => negb (String.eqb (nth i actual "") "")) (seq (num + 1) (List.length actual - (num + 1))) then 1%Z else 0%Z
    else 0%Z
  end.
(** _compare_actual_vs_expected_output, NetworkConfigQueryRunner.py:208-243: the text of the file, if it exists, and the
    two flags of the tests. *)
Definition compare_file (upd create : bool) (file : option string) (output : string) : Z :=
  match file with
  | Some text => if upd then 0%Z else compare_output (file_lines text) (split_nl output)
  | None => if create then 0%Z else 1%Z
  end.

(** ** run_query *)
Inductive outcome := Raised | PlainZero | Triple (res err skipped : Z).
Section Run.
Context {Name : Type} (name_eqb : Name -> Name -> bool)
        (exec1 : Name -> option iteration) (exec2 : Name -> Name -> option iteration)
        (full : bool)                       (* output_configuration.fullExplanation as configured *)
        (finish : list string -> string)    (* compute_final_results' output, with the explanation appended *)
        (compare : option (string -> Z)).   (* the comparison, if an expected output file is given *)
(** run_query, NetworkConfigQueryRunner.py:123-159; 169-178 for queries on one configuration. *)
Definition run_query (t : qtype) (configs : list Name) : outcome :=
  let iterations := match t with
                    | SingleConfig => map exec1 configs
                    | _ => map (fun ab => exec2 (fst ab) (snd ab)) (pairs_of name_eqb t configs)
                    end in
  match t, List.length configs <=? 1 with
  | SingleConfig, _ | _, false =>
    match run_all (q0 full) iterations with
    | None => Raised
    | Some q => Triple (r_num q)
                       (match compare with
                        | Some cmp => if r_full q then cmp (finish (r_outs q)) else 0%Z
                        | None => 0%Z
                        end) (r_skipped q)
    end
  | _, true => PlainZero
  end.
End Run.

(** ** The command line *)
(** _compute_return_value, nca_cli.py:114-121. *)
Definition return_value (result err skipped : Z) : Z := (4 * skipped + 2 * err + result)%Z.
(** _execute_single_config_query and _execute_pair_configs_query, nca_cli.py:84-111; [None]: an exception (unpacking the
    plain 0 is one). *)
Definition single_exit (o : outcome) : option Z :=
  match o with Triple r e n => Some (return_value (bz (0 <? r)%Z) e n) | _ => None end.
Definition pair_exit (o : outcome) : option Z :=
  match o with Triple r e n => Some (return_value r e n) | _ => None end.

(** The mutually exclusive switches, nca_cli.py:281-309. *)
Inductive switch := SwSanity | SwConnectivity | SwSemanticDiff | SwEquiv | SwInterferes | SwForbids | SwPermits.
(** The query of the switch and its type, nca_cli.py:173-237 with get_query_type of the query classes. *)
Definition switch_type (s : switch) : qtype :=
  match s with
  | SwSanity | SwConnectivity => SingleConfig
  | SwEquiv | SwSemanticDiff => PairComparison
  | SwInterferes | SwForbids | SwPermits => ToBase
  end.
Definition base_as_second (s : switch) : bool := match s with SwEquiv | SwInterferes => true | _ => false end.
(** --expected_output is read with two of the switches only, nca_cli.py:228-237. *)
Definition reads_expected (s : switch) : bool := match s with SwConnectivity | SwSemanticDiff => true | _ => false end.
(** The queries run from the command line that assign fullExplanation, NetworkConfigQuery.py:784, 1365. *)
Definition assigns_full (s : switch) : bool := match s with SwConnectivity | SwSemanticDiff => true | _ => false end.

Section Cli.
Context {Cfg : Type} (cfg_eqb : Cfg -> Cfg -> bool)
        (nopeers : Cfg -> bool) (unsupported : switch -> bool) (msg : string)
        (sanity connectivity : Cfg -> option (Z * string * bool))
        (pair_query : switch -> Cfg -> Cfg -> option (Z * string * bool))
        (finish : list string -> string) (expected : option (string -> Z)).
Definition exec_one (s : switch) (g : Cfg) : option iteration :=
  execute_in_format (nopeers g) (unsupported s) (assigns_full s) msg
    (match s with SwConnectivity => connectivity g | _ => sanity g end).
Definition exec_two (s : switch) (g1 g2 : Cfg) : option iteration :=
  execute_in_format (nopeers g1 || nopeers g2) (unsupported s) (assigns_full s) msg (pair_query s g1 g2).
(** run_args without --scheme, nca_cli.py:153-259.  The OutputConfiguration of the command line does not set
    fullExplanation, so it is False (OutputConfiguration.py:26). *)
Definition run_args (s : switch) (np base : Cfg) : option Z :=
  let compare := if reads_expected s then expected else None in
  let run := run_query cfg_eqb (exec_one s) (exec_two s) false finish compare (switch_type s) in
  match switch_type s with
  | SingleConfig => single_exit (run [np])
  | _ => pair_exit (run (if base_as_second s then [np; base] else [base; np]))
  end.
End Cli.
(** nca_main without --period, nca_cli.py:352-366 and the exit status of the process: sys.exit(None) is status 0,
    sys.exit(n) is n modulo 256. *)
Definition main_value (return_0 : bool) (r : option (option Z)) : option Z :=
  match r with
  | Some v => if return_0 then Some 0%Z else v
  | None => Some (if return_0 then 0%Z else 7%Z)
  end.
Definition exit_status (v : option Z) : Z := match v with None => 0 | Some n => n mod 256 end%Z.

(** ** Scheme files *)
(** What building the network configuration gave. *)
Inductive parsed := Parsed (warnings : Z) | SyntaxErr | OtherErr.
(** A network configuration of the scheme with its fields expectedWarnings and expectedError. *)
Record config_entry := Entry { e_warnings : option Z; e_error : option Z; e_parsed : parsed }.
Definition mismatch (expected : option Z) (found : Z) : Z :=
  match expected with Some n => if (found =? n)%Z then 0 else 1 | None => 0 end%Z.
(** _add_config, SchemeRunner.py:99-128: what is added to global_res; [None]: the exception leaves the method. *)
Definition add_config (e : config_entry) : option Z :=
  match e_parsed e with
  | Parsed w => Some (mismatch (e_warnings e) w + mismatch (e_error e) 0)%Z
  | SyntaxErr => match e_error e with None => None | Some _ => Some (mismatch (e_error e) 1) end
  | OtherErr => None
  end.
(** A query of the scheme: the runs of the query keys of its dictionary, in order, and its other fields. *)
Record query_entry := Query { q_runs : list outcome; q_expected : option Z; q_expected_skip : option Z }.
(** The inner loop of run_queries, SchemeRunner.py:235-241. *)
Fixpoint run_keys (l : list outcome) (acc : Z * Z * Z) : option (Z * Z * Z) :=
  match l with
  | [] => Some acc
  | Triple r e n :: l => run_keys l (r, e, n)
  | _ :: _ => None
  end.
(** One step of run_queries, SchemeRunner.py:225-260. *)
Definition run_query_entry (q : query_entry) : option Z :=
  match run_keys (q_runs q) (0, 0, 0)%Z with
  | None => None
  | Some (res, err, skipped) =>
    Some (mismatch (q_expected q) res +
          (if (skipped =? match q_expected_skip q with Some n => n | None => 0 end)%Z then 0 else 1) +
          (if (err =? 0)%Z then 0 else 1))%Z
  end.
Fixpoint total (l : list (option Z)) (acc : Z) : option Z :=
  match l with [] => Some acc | Some n :: l => total l (acc + n)%Z | None :: _ => None end.
(** activate_exp_tracker, SchemeRunner.py:176-209: for each query, whether its output format is html. *)
Definition activate (html : list bool) : bool :=
  let n := List.length (filter (fun b => b) html) in
  if n =? 0 then true else if (n =? 1) && (match html with b :: _ => b | [] => false end) then true else false.
(** run_scheme, SchemeRunner.py:130-164: [None] an exception, [Some None] a return without a value. *)
Definition run_scheme (html : list bool) (configs : list config_entry) (queries : list query_entry) : option (option Z) :=
  if negb (activate html) then Some None
  else match total (map add_config configs) 0 with
       | None => None
       | Some n => match total (map run_query_entry queries) n with
                   | None => None
                   | Some n => Some (Some n)
                   end
       end.
