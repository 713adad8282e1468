(** Parts of C98, C47 and C50 that hold without any restriction: C151 (several processes that
    only read), C152 (nothing is ignored without a rule), C153 (a size that makes no sense
    never lets a run start). *)
From Coq Require Import String Ascii.
From Verif Require Import Util PageModel PageOps TreeModel TxnModel DbModel SysModel DbSpec LifeModel PropLife.
From Verif Require Import HeapModel IgnoreModel HumanModel PropHuman CollectModel WalkModel PropWalk PropIgnore IgnoreSpec ConfigModel PropConfig MainModel PropMain.
Local Open Scope list_scope.
Local Open Scope N_scope.

(** ** C151 *)
Theorem shared_reading : forall l d m, Forall PropLife.quiet l -> mrun (mkMulti d []) l = Some m ->
  u_disk m = d /\ forall i k r, proc_reads m i k = Some r -> stored d k = Some r.
Proof. exact shared_reading_partial. Qed.
Print Assumptions shared_reading.

(** ** C152 *)
Lemma chain_ignored {R} (exec : R -> str -> bool) path d : forall cs res, match_chain R exec cs path d res = MIgnored ->
  res = MIgnored \/ exists c, In c cs /\ says exec c path d MIgnored.
Proof.
  induction cs as [|c cs IH]; intros res E; [left; exact E|].
  destruct (says_or_silent exec c path d) as [S|(v & S)].
  - rewrite chain_silent in E by exact S. destruct (IH _ E) as [X|(c' & I & X)]; [now left|]. right. exists c'. split; [now right|exact X].
  - rewrite (chain_says exec c cs path d res v S) in E. right. destruct (IH _ E) as [->|(c' & I & X)]; [exists c; split; [now left|exact S]|].
    exists c'. split; [now right|exact X].
Qed.

(** A file the walk meets and leaves out: its permissions exclude it, or the last pattern that
    applies to it in one of the ignore files in force is not a negated one. *)
Theorem left_out_by_rule : forall R compile exec (c : wconf R) f a cs p i,
  reached compile exec c f a cs p -> s_stat f p = Some i -> i_type i = TReg -> ~ taken compile exec c f a p i cs ->
  check_permissions (w_conf c) i = false \/
  w_git c = true /\ exists x rel q, In x cs /\ relative (c_base x) p rel /\ last_applying R exec (c_pats x) rel false q /\ g_neg (p_flags q) = false.
Proof.
  intros R compile exec c f a cs p i H S T NT. destruct (check_permissions (w_conf c) i) eqn:P; [right|now left].
  destruct (w_git c) eqn:G; [split; [reflexivity|]|].
  2:{ exfalso. apply NT. constructor; auto. constructor; auto. intros X. congruence. }
  destruct (ignore_match R exec cs p false) eqn:M.
  - exfalso. apply NT. constructor; auto. constructor; auto. intros _ _. rewrite T, M. discriminate.
  - unfold ignore_match in M. destruct (chain_ignored exec p false cs _ M) as [X|(x & I & rel & q & RL & L & V)]; [discriminate|].
    exists x, rel, q. destruct (g_neg (p_flags q)); [discriminate|auto].
  - exfalso. apply NT. constructor; auto. constructor; auto. intros _ _. rewrite T, M. discriminate.
Qed.
Print Assumptions left_out_by_rule.

(** ** C153 *)

(** a text that is no size: no number in front, or a number and then something that is no unit *)
Inductive nonsense : str -> Prop :=
| blank ws : Forall space ws -> nonsense ws
| no_digit ws c t : Forall space ws -> ~ space c -> ~ digit c -> ~ In c (lit "+-.iInN") -> nonsense (ws ++ c :: t)
| no_unit ws ds vs c t : Forall space ws -> Forall digit ds -> ds <> [] -> Forall space vs ->
    ~ space c -> ~ digit c -> ~ In c (lit ".eExXKkMmGgTt") -> nonsense (ws ++ ds ++ vs ++ c :: t).

Lemma nonsense_rejected s : nonsense s -> parse_human_size s = PVal (-1).
Proof.
  intros [ws W|ws c t W S D U|ws ds vs c t W D N V S DD U].
  - rewrite <- (app_nil_r ws). now apply size_no_number.
  - now apply size_no_number.
  - now apply size_bad_unit.
Qed.

(** -m, -M or -x with such a text, anywhere on the command line: nothing is walked or
    compared.  Status 1 and the usage text, unless -h or -V was met before. *)
Theorem bad_size_refused : forall R vec (w : world R vec) fuel os e args o s c out,
  In o (lit "mMx") -> In (o, s) os -> nonsense s -> ftwin_main w fuel os e args = Exit c out ->
  out = OInfo /\ (c = 1%Z \/ c = 0%Z /\ (given os "h" \/ given os "V")).
Proof.
  intros R vec w fuel os e args o s c out IO IS NS E. apply nonsense_rejected in NS.
  assert (PE : forall g, process_option g (o, s) = PErr).
  { intros g. unfold process_option.
    assert (H : handle_numeric g o s = PErr).
    { unfold handle_numeric. destruct IO as [<-|[<-|[<-|[]]]]; cbn; unfold handle_size; rewrite NS; reflexivity. }
    rewrite H. destruct IO as [<-|[<-|[<-|[]]]]; reflexivity. }
  assert (NP : forall l g g', In (o, s) l -> parse_opts g l <> POk g').
  { induction l as [|x l IH]; intros g g' I; [destruct I|]. cbn [parse_opts]. destruct I as [->|I]; [rewrite PE; discriminate|].
    destruct (process_option g x); try discriminate. now apply IH. }
  unfold ftwin_main in E. destruct (asks_info _ os) eqn:AI.
  { injection E as <- <-. split; [reflexivity|]. right. split; [reflexivity|]. now apply asks_info_given in AI. }
  unfold usage_error, parse_args in E. destruct (parse_opts (cfg_create (o_cpus w)) os) eqn:PO; try discriminate.
  - now apply NP in PO.
  - injection E as <- <-. auto.
Qed.
Print Assumptions bad_size_refused.

(** * Witnesses *)

(** two processes open one file with a pair in it; one of them writes but gives up *)
Example shared_case :
  match mrun (mkMulti (disk_of env_create) []) (MOpen :: write_one 0 [97] [49]) with
  | Some m0 =>
      let l := [MOpen; MOpen; MAct 0 (BeginR 1 7 7); MAct 1 (BeginW 2); MAct 1 (PutA 2 [97] [50]); MAct 1 (AbortW 2)] in
      Forall PropLife.quiet l /\
      match mrun (mkMulti (u_disk m0) []) l with
      | Some m => proc_reads m 0 [97] = Some (Ok [49]) /\ proc_reads m 1 [97] = Some (Ok [49])
      | None => False end
  | None => False end.
Proof. vm_compute. repeat (split || constructor || reflexivity). Qed.

(** d/junk is met below d and left out by the line "junk" of d/.gitignore *)
Example left_out_case : exists cs i,
  reached (fun r => Some r) toy (wbase false) fs1 (lit "d") cs (lit "d/junk") /\ s_stat fs1 (lit "d/junk") = Some i /\ i_type i = TReg /\
  ~ taken (fun r => Some r) toy (wbase false) fs1 (lit "d") (lit "d/junk") i cs /\ check_permissions (w_conf (wbase false)) i = true.
Proof.
  assert (F : exists x, load_file str (fun r => Some r) 4095 (mkCtx (lit "d") []) (lit "# rules" ++ [10] ++ lit "junk" ++ [10]) = Some x /\
    ignore_match str toy (x :: w_global (wbase false)) (lit "d/junk") false = MIgnored).
  { eexists. split; vm_compute; reflexivity. }
  destruct F as (x & F & M). exists (x :: w_global (wbase false)). eexists. split; [|split; [vm_compute; reflexivity|split; [reflexivity|split; [|vm_compute; reflexivity]]]].
  - change (lit "d/junk") with (join (lit "d") (lit "junk")).
    eapply reached_entry with (cs := w_global (wbase false)) (es := [(lit ".", TDir); (lit "..", TDir); (lit ".x", TReg); (lit "a", TReg); (lit "junk", TReg); (lit "sub", TDir); (lit "gone", TLnk)]).
    + constructor.
    + vm_compute. reflexivity.
    + reflexivity.
    + constructor; [intros _ _; vm_compute; discriminate|vm_compute; reflexivity].
    + vm_compute. reflexivity.
    + eapply force_file; [reflexivity|vm_compute; reflexivity|exact F].
    + do 4 right. now left.
    + constructor; try discriminate. constructor; [vm_compute; intuition discriminate|right; discriminate].
  - intros [_ _ [P _] _]. apply P; [reflexivity|discriminate|exact M].
Qed.

Example bad_size_case : nonsense (lit "12 Q") /\ nonsense (lit "big") /\
  ftwin_main world1 9 [(chr "m", lit "12 Q")] GEof [lit "/d"] = Exit 1 OInfo /\
  ftwin_main world1 9 [(chr "x", lit "big"); (chr "h", [])] GEof [lit "/d"] = Exit 1 OInfo.
Proof.
  split.
  { apply (no_unit [] (lit "12") [32] (chr "Q") []); [constructor|repeat constructor; vm_compute; discriminate|discriminate| | | |].
    - constructor; [vm_compute; tauto|constructor].
    - vm_compute. intuition discriminate.
    - intros H. vm_compute in H. destruct H as [_ H]. now apply H.
    - vm_compute. intuition discriminate. }
  split; [apply (no_digit [] (chr "b") (lit "ig")); [constructor|vm_compute; intuition discriminate|intros H; vm_compute in H; destruct H as [_ H]; now apply H|vm_compute; intuition discriminate]|].
  split; vm_compute; reflexivity.
Qed.
