(** Termination and progress of the thread pool. *)
From Verif Require Import Util PoolModel PoolSpec PoolProofs.

(** * A bound on the number of steps *)
Definition wm (w : wpc) : nat := match w with WWait | WDone => 0 | WProc _ => 2 | _ => 1 end.
Definition sum {A} (f : A -> nat) (l : list A) : nat := fold_right (fun a s => f a + s) 0 l.
Definition callm (n : nat) (c : call) : nat :=
  match c with Add _ => 2 * n + 6 | Wait => 3 | Shutdown => n + 2 end.
Definition pcm (n : nat) (c : cpc) : nat :=
  match c with CRun => 0 | CSignal => n + 1 | CWait => 2 | CWoken => 1 | CJoin => 1 end.
Definition clm (n : nat) (c : client) : nat := pcm n (c_pc c) + sum (callm n) (c_script c).
Definition measure (p : pool) : nat :=
  let n := length (workers p) in
  sum wm (workers p) + 2 * length (queue p) + (if ended p then 0 else n + 1) + sum (clm n) (clients p).

Lemma sum_upd {A} (f : A -> nat) l i a b :
  nth_error l i = Some a -> sum f (upd l i b) + f a = sum f l + f b.
Proof.
  revert i; induction l as [|x l IH]; intros [|i] H; cbn [nth_error upd sum fold_right] in *; try discriminate.
  - injection H as <-. lia.
  - specialize (IH _ H). unfold sum in IH. lia.
Qed.
Lemma woken_sum l m : woken wake_w l m -> sum wm m <= sum wm l + length l.
Proof.
  intros W. induction W as [|x y l m R W IH]; cbn [sum fold_right length] in *; auto.
  assert (wm y <= wm x + 1) by (destruct R; subst; destruct x; cbn; lia). unfold sum in IH. lia.
Qed.
Lemma woken_sum_c n l m : woken wake_c l m -> sum (clm n) m <= sum (clm n) l.
Proof.
  intros W. induction W as [|x y l m R W IH]; cbn [sum fold_right] in *; auto.
  assert (clm n y <= clm n x) by (destruct R; subst; auto; destruct x as [[] s]; cbn; lia). unfold sum in IH. lia.
Qed.

Lemma wait_for_task_measure p i b :
  nth_error (workers p) i = Some b -> measure (wait_for_task p i) + wm b <= measure p.
Proof.
  intros E. assert (LI : i < length (workers p)) by (now apply nth_error_Some_lt in E).
  unfold wait_for_task. destruct (_ && _ && _) eqn:C.
  - apply andb_prop in C as [C _]. apply andb_prop in C as [C _]. apply negb_true_iff in C.
    unfold measure. cbn [workers clients queue ended]. rewrite length_upd, map_length, C.
    pose proof (woken_sum_c (length (workers p)) _ _ (woken_map wake_c (clients p))).
    pose proof (woken_sum _ _ (woken_upd_both wake_w _ _ i WWait (woken_map wake_w (workers p)))) as W.
    rewrite length_upd in W. pose proof (sum_upd wm _ i b WWait E) as U. cbn [wm] in U. lia.
  - unfold measure. cbn [workers clients queue ended]. rewrite length_upd.
    pose proof (sum_upd wm _ i b WWait E) as U. cbn [wm] in U. lia.
Qed.

Lemma section_measure p i b :
  nth_error (workers p) i = Some b -> wm b = 1 -> measure (section p i) + 1 <= measure p.
Proof.
  intros E B. unfold section. destruct (shut p) eqn:SH.
  - unfold measure. cbn [workers clients queue ended]. rewrite length_upd.
    pose proof (sum_upd wm _ i b WDone E) as U. cbn [wm] in U. lia.
  - destruct (ended p) eqn:EN.
    + pose proof (wait_for_task_measure p i b E). lia.
    + pose proof (drop_null_len (queue p)) as L. destruct (drop_null (queue p)) as [|x r].
      * pose proof (wait_for_task_measure (mkPool (workers p) (clients p) [] (nb_waiting p) (running p) (ended p) (shut p) (log p)) i b E) as W.
        rewrite EN, SH in W. unfold measure in W at 2. cbn [workers clients queue ended length] in W.
        unfold measure at 2. rewrite EN. lia.
      * unfold measure. cbn [workers clients queue ended length] in *. rewrite length_upd, EN.
        pose proof (sum_upd wm _ i b (WProc x) E) as U. cbn [wm] in U. lia.
Qed.

Lemma measure_nb p nb : measure (mkPool (workers p) (clients p) (queue p) nb (running p) (ended p) (shut p) (log p)) = measure p.
Proof. reflexivity. Qed.

Lemma worker_measure p i p' : worker_step p i = Some p' -> measure p' + 1 <= measure p.
Proof.
  unfold worker_step. destruct (nth_error (workers p) i) as [b|] eqn:E; [|discriminate].
  destruct b; try discriminate; intros H; injection H as <-.
  - now apply section_measure with WStart.
  - unfold measure. cbn [workers clients queue ended]. rewrite length_upd.
    pose proof (sum_upd wm _ i _ WRelock E) as U. cbn [wm] in U. lia.
  - now apply section_measure with WRelock.
  - rewrite <- (measure_nb p (nb_waiting p - 1)). now apply section_measure with WWoken.
Qed.

Lemma client_measure p j p' : client_step p j = Some p' -> measure p' + 1 <= measure p.
Proof.
  unfold client_step. destruct (nth_error (clients p) j) as [[pc s]|] eqn:E; [|discriminate]. cbn [c_pc c_script].
  set (n := length (workers p)).
  assert (U : forall d, sum (clm n) (upd (clients p) j d) + clm n (mkC pc s) = sum (clm n) (clients p) + clm n d)
    by (intros d; now apply sum_upd).
  destruct pc; destruct s as [|k s]; try discriminate.
  - destruct k as [x| |].
    + intros H; injection H as <-. unfold measure. cbn [workers clients queue ended]. fold n. rewrite app_length. cbn [length].
      specialize (U (mkC CSignal s)). cbn [clm c_pc c_script pcm sum fold_right callm] in U. unfold clm in U at 2 4; cbn [c_pc c_script pcm sum fold_right callm] in U.
      unfold sum in *. destruct (ended p); lia.
    + destruct (_ || _); intros H; injection H as <-; unfold measure; cbn [workers clients queue ended length]; fold n.
      * specialize (U (mkC CWait s)). unfold clm in U at 2 4; cbn [c_pc c_script pcm sum fold_right callm] in U. unfold sum in *. lia.
      * specialize (U (mkC CRun s)). unfold clm in U at 2 4; cbn [c_pc c_script pcm sum fold_right callm] in U. unfold sum in *. lia.
    + intros H; injection H as <-. unfold measure; cbn [workers clients queue ended length]. rewrite map_length. fold n.
      pose proof (woken_sum _ _ (woken_map wake_w (workers p))) as W. fold n in W.
      pose proof (woken_sum_c n _ _ (woken_upd_both wake_c _ _ j (mkC CJoin s) (woken_map wake_c (clients p)))) as WC.
      specialize (U (mkC CJoin s)). unfold clm in U at 2 4; cbn [c_pc c_script pcm sum fold_right callm] in U. unfold sum in *. lia.
  - intros H; injection H as <-. unfold measure; cbn [workers clients queue ended length]. fold n.
    specialize (U (mkC CRun [])). unfold clm in U at 2 4; cbn [c_pc c_script pcm sum fold_right callm] in U. unfold sum in *. lia.
  - intros H; injection H as <-. unfold measure; cbn [workers clients queue ended length]. fold n.
    specialize (U (mkC CRun (k :: s))). unfold clm in U at 2 4; cbn [c_pc c_script pcm sum fold_right callm] in U. unfold sum in *. lia.
  - destruct (forallb _ _); [|discriminate]. intros H; injection H as <-. unfold measure; cbn [workers clients queue ended length]. fold n.
    specialize (U (mkC CRun [])). unfold clm in U at 2 4; cbn [c_pc c_script pcm sum fold_right callm] in U. unfold sum in *. lia.
  - destruct (forallb _ _); [|discriminate]. intros H; injection H as <-. unfold measure; cbn [workers clients queue ended length]. fold n.
    specialize (U (mkC CRun (k :: s))). unfold clm in U at 2 4; cbn [c_pc c_script pcm sum fold_right callm] in U. unfold sum in *. lia.
Qed.

Lemma signal_measure p j ws cs p' : signal_step p j ws cs = Some p' -> measure p' + 1 <= measure p.
Proof.
  unfold signal_step. destruct (nth_error (clients p) j) as [[pc s]|] eqn:E; [|discriminate].
  destruct pc; try discriminate. destruct (_ || _); [|discriminate]. intros H; injection H as <-.
  assert (WW : woken wake_w (workers p) (map_at wake_w ws (workers p))) by (apply woken_map_at, wake_w_idem).
  assert (WC : woken wake_c (clients p) (map_at wake_c cs (clients p))) by (apply woken_map_at, wake_c_idem).
  unfold measure; cbn [workers clients queue ended length]. rewrite (woken_length _ _ _ WW). set (n := length (workers p)).
  pose proof (woken_sum _ _ WW) as W. fold n in W.
  pose proof (woken_sum_c n _ _ (woken_upd_both wake_c _ _ j (mkC CRun s) WC)) as WC'.
  pose proof (sum_upd (clm n) _ j _ (mkC CRun s) E) as U.
  unfold clm in U at 2 4; cbn [c_pc c_script pcm] in U. lia.
Qed.

Lemma step_measure p a p' : step p a = Some p' -> spurious a = false -> measure p' + 1 <= measure p.
Proof.
  intros H S. destruct a; try discriminate; cbn [step] in H; eauto using worker_measure, client_measure, signal_measure.
Qed.
Lemma step_measure_spurious p a p' : step p a = Some p' -> spurious a = true -> measure p' <= measure p + 1.
Proof.
  intros H S. destruct a as [|j| |i|j]; try discriminate; cbn [step] in H.
  - unfold at_pc in H. destruct (nth_error (workers p) i) as [[]|] eqn:E; try discriminate. injection H as <-.
    unfold measure; cbn [workers clients queue ended length]. rewrite length_upd.
    pose proof (sum_upd wm _ i _ WWoken E) as U. cbn [wm] in U. lia.
  - destruct (nth_error (clients p) j) as [[pc s]|] eqn:E; [|discriminate]. destruct pc; try discriminate. injection H as <-.
    unfold measure; cbn [workers clients queue ended length].
    pose proof (sum_upd (clm (length (workers p))) _ j _ (mkC CWoken s) E) as U.
    unfold clm in U at 2 4; cbn [c_pc c_script pcm] in U. lia.
Qed.

Lemma exec_measure tr : forall p p', exec p tr = Some p' ->
  length tr + measure p' <= measure p + 2 * cnt spurious tr.
Proof.
  induction tr as [|a tr IH]; intros p p' H; cbn [exec] in H; [injection H as <-; rewrite cnt_nil; cbn [length]; lia|].
  destruct (step p a) as [q|] eqn:E; [|discriminate]. specialize (IH _ _ H). rewrite cnt_cons. cbn [length].
  destruct (spurious a) eqn:S.
  - pose proof (step_measure_spurious _ _ _ E S). lia.
  - pose proof (step_measure _ _ _ E S). lia.
Qed.

(** * Some thread can always move *)
Lemma cnt_all_done l : cnt active l = 0 -> cnt blocked_w l = 0 ->
  forallb (fun w => match w with WDone => true | _ => false end) l = true.
Proof.
  induction l as [|w l IH]; auto. rewrite !cnt_cons. cbn [forallb]. intros A B.
  destruct w; cbn [active blocked_w] in *; try lia.
Qed.
Lemma in_seq_at {A} (f : A -> bool) l : existsb f l = true -> existsb (at_pc f l) (seq 0 (length l)) = true.
Proof.
  intros H. apply existsb_exists in H as (a & I & F). apply In_nth_error in I as [k K].
  apply existsb_exists. exists k. split; [apply in_seq; apply nth_error_Some_lt in K; lia|]. unfold at_pc. now rewrite K.
Qed.

Lemma signal_possible p j s : nth_error (clients p) j = Some (mkC CSignal s) ->
  exists ws cs p', signal_step p j ws cs = Some p'.
Proof.
  intros E. exists (seq 0 (length (workers p))), (seq 0 (length (clients p))). unfold signal_step. rewrite E.
  destruct (existsb blocked_w (workers p)) eqn:B1; [rewrite (in_seq_at _ _ B1); cbn [orb]; eauto|].
  destruct (existsb blocked_c (clients p)) eqn:B2; [rewrite (in_seq_at _ _ B2), orb_true_r; cbn [orb]; eauto|].
  cbn [negb andb]. rewrite orb_true_r. eauto.
Qed.

Lemma progress n p : 1 <= n -> Inv n p ->
  (exists a p', spurious a = false /\ step p a = Some p') \/
  (all_returned p /\ cnt active (workers p) = 0).
Proof.
  intros N1 I.
  destruct (Nat.eq_dec (cnt active (workers p)) 0) as [A0|A0].
  2:{ left. assert (P : 0 < cnt active (workers p)) by lia. apply cnt_pos in P as (i & b & Hi & Hb).
      exists (Worker i). cbn [step spurious]. unfold worker_step. rewrite Hi. destruct b; try discriminate; eauto. }
  destruct (Nat.eq_dec (cnt sig (clients p)) 0) as [S0|S0].
  2:{ left. assert (P : 0 < cnt sig (clients p)) by lia. apply cnt_pos in P as (j & [pc s] & Hj & Hs).
      destruct pc; try discriminate. destruct (signal_possible p j s Hj) as (ws & cs & p' & H).
      exists (Signal j ws cs), p'. auto. }
  destruct (i_main _ _ I) as (c & Hc & Mc). destruct c as [pc s]. unfold main_ok in Mc. cbn [c_pc c_script] in Mc.
  assert (M : (exists a p', spurious a = false /\ step p a = Some p') \/ (pc = CRun /\ s = [])).
  { destruct pc.
    - destruct s as [|k s]; auto. left. exists (Client 0). cbn [step spurious]. unfold client_step. rewrite Hc. cbn [c_pc c_script].
      destruct k; eauto. destruct (_ || _); eauto.
    - exfalso. pose proof (cnt_zero _ _ S0 _ _ Hc). discriminate.
    - exfalso. destruct Mc as (_ & _ & _ & _ & M). lia.
    - left. exists (Client 0). cbn [step spurious]. unfold client_step. rewrite Hc. cbn [c_pc c_script]. destruct s; eauto.
    - left. exists (Client 0). cbn [step spurious]. unfold client_step. rewrite Hc. cbn [c_pc c_script].
      destruct Mc as (_ & SH & _). rewrite (cnt_all_done _ A0 (i_shut _ _ I SH)). destruct s; eauto. }
  destruct M as [M|[-> ->]]; auto.
  assert (D : (exists j x s', nth_error (clients p) (Datatypes.S j) = Some (mkC CRun (Add x :: s'))) \/
              forall j d, nth_error (clients p) (Datatypes.S j) = Some d -> d = mkC CRun []).
  { assert (Q : forall l, (forall j d, nth_error l j = Some d -> adder_ok d /\ sig d = false) ->
        (exists j x s', nth_error l j = Some (mkC CRun (Add x :: s'))) \/ forall j d, nth_error l j = Some d -> d = mkC CRun []).
    { induction l as [|d l IH]; intros H; [right; intros [|]; discriminate|].
      destruct IH as [(j & x & s' & K)|K]; [intros j d' J; apply (H (Datatypes.S j) d' J) | left; exists (Datatypes.S j), x, s'; auto|].
      destruct (H 0 d eq_refl) as [[P O] SG]. destruct d as [pc s]. cbn [c_pc c_script] in *. destruct P as [-> | ->]; [|discriminate].
      destruct s as [|k s].
      - right. intros [|j] d J; [now injection J | now apply (K j)].
      - inversion O as [|? ? [x X] ?]; subst. left. exists 0, x, s. reflexivity. }
    destruct (clients p) as [|d l] eqn:CL; [discriminate|]. cbn [nth_error]. apply Q. intros j d' J. split.
    - apply (i_adders _ _ I j). rewrite CL. exact J.
    - apply (cnt_zero _ _ S0 (Datatypes.S j)). exact J. }
  destruct D as [(j & x & s' & D)|D].
  - left. exists (Client (Datatypes.S j)). cbn [step spurious]. unfold client_step. rewrite D. cbn [c_pc c_script]. eauto.
  - right. split; auto. intros d Hd. apply In_nth_error in Hd as [[|j] J]; [rewrite Hc in J; now injection J|eauto].
Qed.

Lemma completes n : forall m p, measure p <= m -> 1 <= n -> Inv n p ->
  exists tr p', no_spurious tr /\ exec p tr = Some p' /\ all_returned p'.
Proof.
  induction m as [|m IH]; intros p L N1 I; destruct (progress n p N1 I) as [(a & q & SA & ST)|[R _]].
  - pose proof (step_measure _ _ _ ST SA). lia.
  - exists [], p. repeat split; auto. constructor.
  - destruct (IH q) as (tr & p' & NS & EX & AR); auto.
    + pose proof (step_measure _ _ _ ST SA). lia.
    + eapply step_inv; eauto.
    + exists (a :: tr), p'. split; [constructor; auto|]. split; auto. cbn [exec]. now rewrite ST.
  - exists [], p. repeat split; auto. constructor.
Qed.
