(** Safety of the thread pool: what is queued, handed out and completed. *)
From Verif Require Import Util PoolModel PoolSpec PoolProofs.

Definition nn (q : list N) : list N := filter (fun x => negb (x =? 0)%N) q.
Definition ip (w : wpc) : list N := match w with WProc x => [x] | _ => [] end.
Definition inproc (ws : list wpc) : list N := flat_map ip ws.

Lemma adds_app l m : adds (l ++ m) = adds l ++ adds m. Proof. apply flat_map_app. Qed.
Lemma adds_silent l e : adds [e] = [] -> adds (l ++ [e]) = adds l.
Proof. intros H. now rewrite adds_app, H, app_nil_r. Qed.
Lemma starts_app l m : starts (l ++ m) = starts l ++ starts m. Proof. apply flat_map_app. Qed.
Lemma finishes_app l m : finishes (l ++ m) = finishes l ++ finishes m. Proof. apply flat_map_app. Qed.

Lemma inproc_upd l i a b : nth_error l i = Some a ->
  Permutation (inproc (upd l i b) ++ ip a) (inproc l ++ ip b).
Proof.
  revert i; induction l as [|x l IH]; intros [|i] H; cbn [nth_error upd inproc flat_map] in *; try discriminate.
  - injection H as ->. fold (inproc l). rewrite (Permutation_app_comm (ip b) (inproc l)), (Permutation_app_comm (ip a) (inproc l)), <- !app_assoc. apply Permutation_app_head, Permutation_app_comm.
  - fold (inproc l). fold (inproc (upd l i b)). rewrite <- !app_assoc. apply Permutation_app_head. now apply IH.
Qed.
Lemma inproc_upd0 l i a b : nth_error l i = Some a -> ip a = [] -> ip b = [] -> inproc (upd l i b) = inproc l.
Proof.
  revert i; induction l as [|x l IH]; intros [|i] H A B; cbn [nth_error upd inproc flat_map] in *; try discriminate.
  - injection H as ->. now rewrite A, B.
  - f_equal. now apply IH.
Qed.
Lemma inproc_woken l m : woken wake_w l m -> inproc m = inproc l.
Proof.
  intros W. induction W as [|x y l m R W IH]; auto. cbn [inproc flat_map]. fold (inproc m); fold (inproc l). rewrite IH.
  f_equal. destruct R; subst; auto. destruct x; reflexivity.
Qed.
Lemma inproc_idle l : cnt busy l = 0 -> inproc l = [].
Proof. induction l as [|w l IH]; auto. rewrite cnt_cons. cbn [inproc flat_map]. fold (inproc l). destruct w; cbn [busy ip]; try lia; intros; apply IH; lia. Qed.

Lemma nn_drop_null q : nn (drop_null q) = nn q.
Proof. induction q as [|[|x] q IH]; auto. Qed.
Lemma drop_null_head q x r : drop_null q = x :: r -> (x =? 0)%N = false /\ nn q = x :: nn r.
Proof.
  induction q as [|[|y] q IH]; cbn [drop_null]; try discriminate; auto.
  intros H. injection H as <- <-. split; reflexivity.
Qed.

(** * Facts that hold in every schedule *)
Lemma subseq_refl {A} (l : list A) : subseq l l. Proof. induction l; constructor; auto. Qed.
Lemma subseq_app {A} (l m l' m' : list A) : subseq l m -> subseq l' m' -> subseq (l ++ l') (m ++ m').
Proof.
  intros H K. induction H as [m|x l m H IH|x l m H IH]; cbn [app].
  - induction m as [|y m IH]; auto. cbn [app]. now constructor.
  - now constructor.
  - now constructor.
Qed.
Lemma subseq_trans {A} (l m k : list A) : subseq l m -> subseq m k -> subseq l k.
Proof.
  intros H K. revert l H. induction K as [k|x m k K IH|x m k K IH]; intros l H.
  - inversion H; subst. constructor.
  - inversion H; subst; [constructor | constructor; auto | apply sub_skip; auto].
  - apply sub_skip. auto.
Qed.
Lemma subseq_drop_tail {A} (l m k : list A) : subseq (l ++ m) k -> subseq l k.
Proof. apply subseq_trans. rewrite <- (app_nil_r l) at 1. apply subseq_app; [apply subseq_refl | constructor]. Qed.
Lemma subseq_count {A} (f : A -> bool) (l m : list A) : subseq l m -> cnt f l <= cnt f m.
Proof. intros H. induction H; rewrite ?cnt_nil, ?cnt_cons; lia. Qed.

Inductive paired (w : nat) : list event -> Prop :=
| pd_nil : paired w []
| pd_snoc l x : paired w l -> paired w (l ++ [EStart w x; EFinish w x]).
Lemma alternates_pair w l m : paired w l -> alternates w m -> alternates w (l ++ m).
Proof. intros P. revert m. induction P as [|l x P IH]; intros m H; auto. rewrite <- app_assoc. apply IH. cbn. auto. Qed.

Record Gen (p : pool) : Prop := {
  g_sub : subseq (starts (log p) ++ nn (queue p)) (adds (log p));
  g_perm : Permutation (starts (log p)) (finishes (log p) ++ inproc (workers p));
  g_alt : forall i, exists m, paired i m /\
    of_worker i (log p) = m ++ match nth_error (workers p) i with Some (WProc x) => [EStart i x] | _ => [] end }.

Lemma of_worker_app w l m : of_worker w (l ++ m) = of_worker w l ++ of_worker w m.
Proof. apply filter_app. Qed.

(** steps that leave the log and the tasks in progress alone, and can only shrink the queue *)
Lemma gen_frame p p' :
  Gen p -> log p' = log p -> (forall i x, nth_error (workers p') i = Some (WProc x) <-> nth_error (workers p) i = Some (WProc x)) ->
  inproc (workers p') = inproc (workers p) ->
  nn (queue p') = nn (queue p) -> Gen p'.
Proof.
  intros [A B C] L W I Q. constructor; rewrite ?L, ?Q, ?I; auto.
  intros i. destruct (C i) as (m & P & M). exists m. split; auto. rewrite M. f_equal.
  destruct (nth_error (workers p') i) as [[]|] eqn:E1; destruct (nth_error (workers p) i) as [[]|] eqn:E2; auto;
    try (apply W in E1; congruence); try (apply W in E2; congruence).
Qed.
Lemma proc_upd l i a b : nth_error l i = Some a -> ip a = [] -> ip b = [] ->
  forall k x, nth_error (upd l i b) k = Some (WProc x) <-> nth_error l k = Some (WProc x).
Proof.
  intros H A B k x. destruct (Nat.eq_dec i k) as [->|NE]; [|now rewrite nth_error_upd_neq].
  rewrite nth_error_upd_eq by (now apply nth_error_Some_lt in H). rewrite H. split; intros E; injection E as ->; discriminate.
Qed.
Lemma proc_woken l m : woken wake_w l m -> forall k x, nth_error m k = Some (WProc x) <-> nth_error l k = Some (WProc x).
Proof.
  intros W k x. split; intros H.
  - destruct (woken_nth_inv _ _ _ _ _ W H) as (a & K & [E|E]); [congruence|]. destruct a; try discriminate. cbn in E. congruence.
  - destruct (woken_nth _ _ _ _ _ W H); auto.
Qed.

Lemma gen_wait p i b : Gen p -> nth_error (workers p) i = Some b -> ip b = [] -> Gen (wait_for_task p i).
Proof.
  intros G E B. unfold wait_for_task. destruct (_ && _ && _).
  - assert (W : woken wake_w (upd (workers p) i WWait) (upd (map wake_w (workers p)) i WWait)) by (apply woken_upd_both, woken_map).
    apply (gen_frame p); cbn [workers log queue]; auto.
    + intros k x. rewrite (proc_woken _ _ W). now apply (proc_upd _ _ b).
    + rewrite (inproc_woken _ _ W). now apply (inproc_upd0 _ _ b).
  - apply (gen_frame p); cbn [workers log queue]; auto.
    + now apply (proc_upd _ _ b).
    + now apply (inproc_upd0 _ _ b).
Qed.

Lemma gen_section p i b : Gen p -> nth_error (workers p) i = Some b -> ip b = [] -> Gen (section p i).
Proof.
  intros G E B. unfold section. destruct (shut p) eqn:SH.
  - apply (gen_frame p); cbn [workers log queue]; auto; [now apply (proc_upd _ _ b) | now apply (inproc_upd0 _ _ b)].
  - destruct (ended p) eqn:EN; [now apply gen_wait with b|].
    pose proof (nn_drop_null (queue p)) as D.
    destruct (drop_null (queue p)) as [|x r] eqn:Q.
    + apply gen_wait with b; auto. apply (gen_frame p); cbn [workers log queue]; auto. tauto.
    + destruct (drop_null_head _ _ _ Q) as [X N]. destruct G as [A P C].
      assert (LI : i < length (workers p)) by (now apply nth_error_Some_lt in E).
      constructor; cbn [workers log queue].
      * rewrite starts_app, adds_app. cbn [starts adds flat_map app]. rewrite app_nil_r, <- app_assoc. cbn [app]. rewrite <- N. exact A.
      * rewrite starts_app, finishes_app. cbn [starts finishes flat_map app]. rewrite app_nil_r, P, <- app_assoc. apply Permutation_app_head.
        pose proof (inproc_upd _ _ b (WProc x) E) as U. rewrite B, app_nil_r in U. now symmetry.
      * intros k. destruct (C k) as (m & PM & M). exists m. split; auto. rewrite of_worker_app, M. unfold of_worker. cbn [filter].
        destruct (Nat.eq_dec i k) as [->|NE].
        -- rewrite Nat.eqb_refl, nth_error_upd_eq by auto. rewrite E. destruct b; try discriminate; now rewrite app_nil_r.
        -- rewrite nth_error_upd_neq by auto. destruct (Nat.eqb_spec i k); [congruence|]. now rewrite app_nil_r.
Qed.

Lemma gen_silent p l e :
  (forall m, starts (m ++ [e]) = starts m) -> (forall m, finishes (m ++ [e]) = finishes m) ->
  (forall w m, of_worker w (m ++ [e]) = of_worker w m) ->
  forall q, subseq (starts l ++ nn q) (adds (l ++ [e])) ->
  forall ws cs nb r en s, Gen (mkPool ws cs p nb r en s l) -> Gen (mkPool ws cs q nb r en s (l ++ [e])).
Proof.
  intros A B C q D ws cs nb r en s [G1 G2 G3]. constructor; cbn [workers log queue] in *.
  - now rewrite A.
  - now rewrite A, B.
  - intros i. rewrite C. auto.
Qed.

Lemma gen_step p a p' : Gen p -> step p a = Some p' -> Gen p'.
Proof.
  intros G H. destruct a as [i|j|j ws cs|i|j]; cbn [step] in H.
  - unfold worker_step in H. destruct (nth_error (workers p) i) as [b|] eqn:E; [|discriminate].
    destruct b; try discriminate; injection H as <-.
    + now apply gen_section with WStart.
    + destruct G as [A P C]. assert (LI : i < length (workers p)) by (now apply nth_error_Some_lt in E).
      constructor; cbn [workers log queue].
      * rewrite starts_app, adds_app. cbn [starts adds flat_map]. now rewrite !app_nil_r.
      * rewrite starts_app, finishes_app. cbn [starts finishes flat_map app]. rewrite app_nil_r, P, <- app_assoc. apply Permutation_app_head.
        pose proof (inproc_upd _ _ _ WRelock E) as U. cbn [ip] in U. rewrite app_nil_r in U. rewrite <- U. apply Permutation_app_comm.
      * intros k. destruct (C k) as (m & PM & M). rewrite of_worker_app, M. unfold of_worker. cbn [filter].
        destruct (Nat.eq_dec i k) as [->|NE].
        -- rewrite Nat.eqb_refl, nth_error_upd_eq by auto. rewrite E, <- app_assoc. cbn [app].
           exists (m ++ [EStart k x; EFinish k x]). split; [now constructor | now rewrite app_nil_r].
        -- rewrite nth_error_upd_neq by auto. destruct (Nat.eqb_spec i k); [congruence|]. exists m. split; auto. now rewrite app_nil_r.
    + now apply gen_section with WRelock.
    + apply gen_section with WWoken; auto. apply (gen_frame p); cbn [workers log queue]; auto. tauto.
  - assert (SK : forall q, subseq (starts (log p) ++ nn (queue p)) q -> subseq (starts (log p) ++ nn []) q).
    { intros q X. cbn [nn filter]. rewrite app_nil_r. now apply subseq_drop_tail in X. }
    unfold client_step in H. destruct (nth_error (clients p) j) as [[pc s]|] eqn:E; [|discriminate]. cbn [c_pc c_script] in H.
    assert (G' : forall cs r en sh, Gen (mkPool (workers p) cs (queue p) (nb_waiting p) r en sh (log p))).
    { intros. apply (gen_frame p); cbn [workers log queue]; auto. tauto. }
    assert (SI : forall e q, starts [e] = [] -> finishes [e] = [] -> (forall w, of_worker w [e] = []) ->
       subseq (starts (log p) ++ nn q) (adds (log p ++ [e])) ->
       forall cs r en sh, Gen (mkPool (workers p) cs q (nb_waiting p) r en sh (log p ++ [e]))).
    { intros e q A B C D cs r en sh. apply (gen_silent (queue p)).
      - intros m. now rewrite starts_app, A, app_nil_r.
      - intros m. now rewrite finishes_app, B, app_nil_r.
      - intros w m. now rewrite of_worker_app, C, app_nil_r.
      - exact D.
      - apply G'. }
    destruct G as [A P C].
    destruct pc; destruct s as [|k s]; try discriminate.
    + destruct k as [x| |].
      * injection H as <-. apply SI; auto. unfold nn. rewrite adds_app, filter_app. cbn [adds flat_map filter]. rewrite app_nil_r, app_assoc.
        apply subseq_app; [exact A|]. destruct (x =? 0)%N; apply subseq_refl.
      * destruct (_ || _); injection H as <-; [apply G' | apply SI; auto].
        rewrite adds_silent by reflexivity. exact (SK _ A).
      * injection H as <-. apply (gen_frame p); cbn [workers log queue]; auto; [constructor; auto | |].
        -- intros k x. now apply proc_woken, woken_map.
        -- apply inproc_woken, woken_map.
    + injection H as <-. apply SI; auto. rewrite adds_silent by reflexivity. exact (SK _ A).
    + injection H as <-. apply SI; auto. rewrite adds_silent by reflexivity. exact (SK _ A).
    + destruct (forallb _ _); [|discriminate]. injection H as <-. apply SI; auto. rewrite adds_silent by reflexivity. exact A.
    + destruct (forallb _ _); [|discriminate]. injection H as <-. apply SI; auto. rewrite adds_silent by reflexivity. exact A.
  - unfold signal_step in H. destruct (nth_error (clients p) j) as [[pc s]|] eqn:E; [|discriminate].
    destruct pc; try discriminate. destruct (_ || _); [|discriminate]. injection H as <-.
    assert (WW : woken wake_w (workers p) (map_at wake_w ws (workers p))) by (apply woken_map_at, wake_w_idem).
    apply (gen_frame p); cbn [workers log queue]; auto; [now apply proc_woken | now apply inproc_woken].
  - unfold at_pc in H. destruct (nth_error (workers p) i) as [[]|] eqn:E; try discriminate. injection H as <-.
    apply (gen_frame p); cbn [workers log queue]; auto; [now apply (proc_upd _ _ WWait) | now apply (inproc_upd0 _ _ WWait)].
  - destruct (nth_error (clients p) j) as [[pc s]|] eqn:E; [|discriminate]. destruct pc; try discriminate. injection H as <-.
    apply (gen_frame p); cbn [workers log queue]; auto. tauto.
Qed.

Lemma gen_init n ss : Gen (pool_init n ss).
Proof.
  constructor; cbn [pool_init workers log queue starts adds finishes flat_map nn filter app].
  - constructor.
  - induction n; auto.
  - intros i. exists []. split; [constructor|]. cbn [of_worker filter app].
    destruct (nth_error (repeat WStart n) i) as [b|] eqn:E; auto. apply nth_error_In, repeat_spec in E. now subst.
Qed.
Lemma gen_exec tr : forall p p', Gen p -> exec p tr = Some p' -> Gen p'.
Proof.
  induction tr as [|a tr IH]; intros p p' G H; cbn [exec] in H; [now injection H as <-|].
  destruct (step p a) as [q|] eqn:S; [|discriminate]. eapply IH; [|exact H]. eapply gen_step; eauto.
Qed.

(** * One client, no spurious return of its wait: exact accounting *)
Definition quiet (p : pool) : Prop := queue p = [] /\ cnt busy (workers p) = 0.
Definition waits_ok (l : list event) : Prop :=
  forall l1 l2 j, l = l1 ++ EWaitRet j :: l2 -> Permutation (adds l1) (finishes l1).
Record Safe (p : pool) : Prop := {
  f_one : exists c, clients p = [c];
  f_add : adds (log p) = starts (log p) ++ nn (queue p);
  f_woken : forall s, clients p = [mkC CWoken s] -> ended p = true;
  f_waits : waits_ok (log p);
  f_script : forall pc s, shut p = false -> clients p = [mkC pc s] ->
             waits_before_shutdown s \/ (s = [Shutdown] /\ (pc = CRun \/ pc = CWait \/ pc = CWoken));
  f_quiet : shut p = true \/ clients p = [mkC CRun [Shutdown]] -> quiet p;
  f_len : forall c, clients p = [c] -> (N.of_nat (length (queue p) + nb_adds (c_script c)) < 2 ^ 32)%N }.

Lemma waits_ok_snoc l e : waits_ok l -> (forall j, e <> EWaitRet j) -> waits_ok (l ++ [e]).
Proof.
  intros W NE l1 l2 j H. destruct l2 as [|x l2 _] using rev_ind.
  - apply app_inj_tail in H as [_ H]. now apply NE in H.
  - rewrite app_comm_cons, app_assoc in H. apply app_inj_tail in H as [H _]. eapply W; eauto.
Qed.
Lemma waits_ok_ret l j : waits_ok l -> Permutation (adds l) (finishes l) -> waits_ok (l ++ [EWaitRet j]).
Proof.
  intros W P l1 l2 k H. destruct l2 as [|x l2 _] using rev_ind.
  - apply app_inj_tail in H as [<- _]. auto.
  - rewrite app_comm_cons, app_assoc in H. apply app_inj_tail in H as [H _]. eapply W; eauto.
Qed.

(** when nothing is queued and no worker is busy, everything added has been completed *)
Lemma quiet_done p : Gen p -> adds (log p) = starts (log p) ++ nn (queue p) -> quiet p ->
  Permutation (adds (log p)) (finishes (log p)).
Proof.
  intros G A [Q B]. rewrite A, Q. cbn [nn filter]. rewrite app_nil_r. rewrite (g_perm _ G), (inproc_idle _ B), app_nil_r. reflexivity.
Qed.

(** what a worker step can change *)
Lemma wait_for_task_frame p i : log (wait_for_task p i) = log p /\ queue (wait_for_task p i) = queue p /\ shut (wait_for_task p i) = shut p /\
  ((clients (wait_for_task p i) = clients p /\ ended (wait_for_task p i) = ended p) \/
   (clients (wait_for_task p i) = map wake_c (clients p) /\ ended (wait_for_task p i) = true)).
Proof. unfold wait_for_task. destruct (_ && _ && _); cbn; auto 10. Qed.

Lemma wake_map_one c : map wake_c [c] = [wake_c c]. Proof. reflexivity. Qed.
Lemma wake_c_script c : c_script (wake_c c) = c_script c. Proof. destruct c as [[] s]; reflexivity. Qed.

Lemma safe_wait p i : Safe p -> queue p = [] -> shut p = false -> cnt busy (workers (wait_for_task p i)) <= cnt busy (workers p) -> Safe (wait_for_task p i).
Proof.
  intros [One Add Wok Wts Scr Qt Len] Q NS B. destruct (wait_for_task_frame p i) as (L & QQ & SS & CL).
  destruct One as [c OC].
  assert (QB : quiet p -> quiet (wait_for_task p i)) by (intros [Q1 B1]; split; [congruence | lia]).
  destruct CL as [[C E]|[C E]].
  - constructor; rewrite ?L, ?QQ, ?C, ?SS, ?E; eauto.
  - rewrite OC, wake_map_one in C. constructor; rewrite ?L, ?QQ, ?SS, ?E; eauto.
    + intros pc s _ X. rewrite C in X. injection X as X. destruct c as [pc0 s0].
      assert (ES : s = s0) by (apply (f_equal c_script) in X; rewrite wake_c_script in X; cbn in X; congruence). subst s0.
      destruct (Scr pc0 s NS OC) as [|[E1 P]]; auto. right. split; auto.
      destruct P as [->|[->| ->]]; cbn in X; injection X as <-; auto.
    + intros [H|H]; [congruence|]. apply QB, Qt. rewrite C in H. injection H as H. destruct c as [[] s0]; try discriminate. injection H as ->. auto.
    + intros d X. rewrite C in X. injection X as <-. rewrite wake_c_script. now apply Len.
Qed.

Lemma busy_upd_le l i a b : nth_error l i = Some a -> busy b = false -> cnt busy (upd l i b) <= cnt busy l.
Proof. intros H B. pose proof (cnt_upd busy l i a b H) as K. rewrite B in K. lia. Qed.
Lemma wait_busy p i a : nth_error (workers p) i = Some a -> cnt busy (workers (wait_for_task p i)) <= cnt busy (workers p).
Proof.
  intros H. unfold wait_for_task. destruct (_ && _ && _); cbn [workers].
  - rewrite (woken_cnt_eq wake_w busy (upd (workers p) i WWait)).
    + now apply busy_upd_le with a. + intros []; auto. + apply woken_upd_both, woken_map.
  - now apply busy_upd_le with a.
Qed.

Lemma safe_frame p p' : Safe p -> log p' = log p -> queue p' = queue p -> clients p' = clients p -> ended p' = ended p -> shut p' = shut p ->
  cnt busy (workers p') <= cnt busy (workers p) -> Safe p'.
Proof.
  intros [One Add Wok Wts Scr Qt Len] L Q C E S B. constructor; rewrite ?L, ?Q, ?C, ?E, ?S; auto.
  intros H. destruct (Qt H). split; [congruence | lia].
Qed.

Lemma safe_section n p i a : Safe p -> Sec n p i -> nth_error (workers p) i = Some a -> Safe (section p i).
Proof.
  intros S SE H. unfold section. destruct (shut p) eqn:SH.
  - apply (safe_frame p); cbn [log queue clients ended shut workers]; auto. now apply busy_upd_le with a.
  - destruct (ended p) eqn:EN.
    + apply safe_wait; auto; [now apply (s_ended _ _ _ SE) | now apply wait_busy with a].
    + destruct (drop_null (queue p)) as [|x r] eqn:Q.
      * assert (N0 : nn (queue p) = []) by (rewrite <- nn_drop_null, Q; reflexivity).
        apply safe_wait; auto.
        -- destruct S as [One Add Wok Wts Scr Qt Len]. constructor; cbn [log queue clients ended shut workers]; auto.
           ++ now rewrite Add, N0.
           ++ rewrite EN in Wok. exact Wok.
           ++ intros K. rewrite SH in Qt. destruct (Qt K). split; auto.
           ++ intros c C. specialize (Len c C). cbn [length]. lia.
        -- now apply (wait_busy _ i a).
      * destruct S as [One Add Wok Wts Scr Qt Len]. destruct (drop_null_head _ _ _ Q) as [X NQ].
        constructor; cbn [log queue clients ended shut workers]; auto.
        -- rewrite adds_silent by reflexivity. rewrite starts_app. cbn [starts flat_map app]. fold (starts (log p)). rewrite <- app_assoc. cbn [app]. now rewrite <- NQ.
        -- rewrite EN in Wok. exact Wok.
        -- apply waits_ok_snoc; auto. discriminate.
        -- intros K. rewrite SH in Qt. destruct (Qt K) as [Q0 _]. rewrite Q0 in Q. discriminate.
        -- intros c C. specialize (Len c C). pose proof (drop_null_len (queue p)) as DL. rewrite Q in DL. cbn [length] in DL. lia.
Qed.

Lemma safe_worker n p i p' : Inv n p -> Safe p -> worker_step p i = Some p' -> Safe p'.
Proof.
  intros I S H. unfold worker_step in H. destruct (nth_error (workers p) i) as [b|] eqn:E; [|discriminate].
  pose proof (inv_sec n p i b I E) as SE.
  destruct b; try discriminate; injection H as <-; cbn [done inwait] in SE; specialize (SE eq_refl);
    try rewrite Nat.sub_0_r in SE.
  - apply safe_section with n WStart; auto; destruct p; exact SE.
  - assert (BZ : 0 < cnt busy (workers p)) by (apply cnt_pos; exists i, (WProc x); auto).
    destruct S as [One Add Wok Wts Scr Qt Len]. constructor; cbn [log queue clients ended shut workers]; auto.
    + now rewrite adds_silent, starts_app, app_nil_r by reflexivity.
    + apply waits_ok_snoc; auto. discriminate.
    + intros K. destruct (Qt K). lia.
  - apply safe_section with n WRelock; auto; destruct p; exact SE.
  - apply safe_section with n WWoken; auto.
    apply (safe_frame p); auto.
Qed.

Lemma int_zero_small q k : (N.of_nat (length (q : list N) + k) < 2 ^ 32)%N -> int_is_zero (length q) = true -> q = [].
Proof.
  intros L H. unfold int_is_zero in H. apply N.eqb_eq in H. rewrite N.mod_small in H by lia. destruct q; auto. cbn [length] in H. lia.
Qed.

Lemma safe_client n p j p' : Inv n p -> Gen p -> Safe p -> client_step p j = Some p' -> Safe p'.
Proof.
  intros I G S H. pose proof S as [One Ad Wok Wts Scr Qt Len]. destruct One as [c OC]. unfold client_step in H. rewrite OC in H.
  destruct j as [|[|j]]; cbn [nth_error] in H; try discriminate. destruct c as [pc s]. cbn [c_pc c_script] in H.
  specialize (Len _ OC). cbn [c_script] in Len.
  assert (OC0 : nth_error (clients p) 0 = Some (mkC pc s)) by (now rewrite OC).
  destruct (i_main _ _ I) as (c0 & H0 & M0). rewrite OC0 in H0. injection H0 as <-. unfold main_ok in M0. cbn [c_pc c_script] in M0.
  assert (RET : quiet p -> forall s' r en, (forall pc', In pc' [pc] -> shut p = false) ->
     (waits_before_shutdown s' \/ s' = [Shutdown]) -> nb_adds s' <= nb_adds s ->
     Safe (mkPool (workers p) [mkC CRun s'] [] (nb_waiting p) r en (shut p) (log p ++ [EWaitRet 0]))).
  { intros QT s' r en NS SC NA. pose proof (quiet_done p G Ad QT) as PD. destruct QT as [Q0 B0].
    specialize (NS pc (or_introl eq_refl)).
    constructor; cbn [log queue clients ended shut workers]; eauto.
    - rewrite adds_silent, starts_app by reflexivity. cbn [starts flat_map]. rewrite app_nil_r. fold (starts (log p)). rewrite Ad, Q0. reflexivity.
    - intros s0 X. discriminate.
    - now apply waits_ok_ret.
    - intros pc0 s0 _ X. injection X as <- <-. destruct SC as [|SC]; auto. 
    - intros _. split; auto.
    - intros c X. injection X as <-. cbn [c_script length]. lia. }
  destruct pc; destruct s as [|k s]; try discriminate.
  - destruct k as [x| |].
    + injection H as <-. destruct M0 as (_ & A & B).
      assert (SH : shut p = false) by (destruct (shut p); auto; specialize (B eq_refl); discriminate).
      destruct (Scr _ _ SH OC) as [SC|[SC _]]; [|discriminate]. cbn [waits_before_shutdown] in SC.
      cbn [upd]. constructor; cbn [log queue clients ended shut workers]; eauto.
      * unfold nn. rewrite adds_app, starts_app, filter_app. cbn [adds starts flat_map filter]. rewrite app_nil_r. fold (starts (log p)). fold (adds (log p)).
        rewrite Ad, app_nil_r. unfold nn. rewrite <- app_assoc. destruct (x =? 0)%N; reflexivity.
      * intros s0 X. discriminate.
      * apply waits_ok_snoc; auto. discriminate.
      * intros pc0 s0 _ X. injection X as <- <-. auto.
      * intros [X|X]; [congruence | discriminate].
      * intros c X. injection X as <-. cbn [c_script]. rewrite app_length. unfold nb_adds in *. cbn [filter length] in *. lia.
    + destruct M0 as (_ & A & B).
      assert (SH : shut p = false) by (destruct (shut p); auto; specialize (B eq_refl); discriminate).
      destruct (Scr _ _ SH OC) as [SC|[SC _]]; [|discriminate]. cbn [waits_before_shutdown] in SC.
      destruct (_ || _) eqn:C; injection H as <-; cbn [upd].
      * constructor; cbn [log queue clients ended shut workers]; eauto.
        -- intros s0 X. discriminate.
        -- intros pc0 s0 _ X. injection X as <- <-. destruct SC as [SC|SC]; auto.
        -- intros [X|X]; [congruence | discriminate].
        -- intros c X. injection X as <-. exact Len.
      * apply orb_false_elim in C as [C1 C2]. apply negb_false_iff in C1, C2. apply Nat.eqb_eq in C2.
        apply RET; auto.
        -- split; [eapply int_zero_small; eauto|]. rewrite (i_nb _ _ I) in C2. pose proof (cnt_split (workers p)). lia.
        -- destruct SC; auto.
    + injection H as <-. cbn [upd map].
      destruct M0 as (_ & A & B).
      assert (SH : shut p = false) by (destruct (shut p); auto; specialize (B eq_refl); discriminate).
      specialize (A SH). cbn [shutdown_last] in A. subst s.
      destruct (Qt (or_intror OC)) as [Q0 B0].
      constructor; cbn [log queue clients ended shut workers]; eauto; try discriminate.
      * intros _. split; auto. cbn [workers]. rewrite (woken_cnt_eq wake_w busy (workers p)); auto; [intros []; auto | apply woken_map].
      * intros c X. injection X as <-. exact Len.
  - injection H as <-. cbn [upd]. destruct M0 as (_ & SH & _). destruct (Scr _ _ SH OC) as [SC|[SC _]]; [|discriminate].
    apply RET; auto. pose proof (i_ended _ _ I (Wok _ OC)) as [X Y]. split; auto.
  - injection H as <-. cbn [upd]. destruct M0 as (_ & SH & _).
    apply RET; auto. + pose proof (i_ended _ _ I (Wok _ OC)) as [X Y]. split; auto.
    + destruct (Scr _ _ SH OC) as [SC|[SC _]]; auto.
  - destruct (forallb _ _); [|discriminate]. injection H as <-. cbn [upd]. destruct M0 as (_ & SH & _).
    constructor; cbn [log queue clients ended shut workers]; eauto; try discriminate.
    + now rewrite adds_silent, starts_app, app_nil_r by reflexivity.
    + apply waits_ok_snoc; auto. discriminate.
    + congruence.
    + intros c X. injection X as <-. exact Len.
  - destruct M0 as (_ & _ & X). discriminate.
Qed.

Lemma safe_step n p a p' : 1 <= n -> Inv n p -> Gen p -> Safe p -> waiter_spurious a = false -> step p a = Some p' -> Safe p'.
Proof.
  intros N1 I G S W H. destruct a as [i|j|j ws cs|i|j]; cbn [step] in H; try discriminate.
  - eapply safe_worker; eauto.
  - eapply safe_client; eauto.
  - unfold signal_step in H. destruct (f_one _ S) as [c OC]. rewrite OC in H.
    destruct j as [|[|j]]; cbn [nth_error] in H; try discriminate. destruct c as [pc s]. destruct pc; try discriminate.
    destruct (_ || _); [|discriminate]. injection H as <-.
    assert (WW : woken wake_w (workers p) (map_at wake_w ws (workers p))) by (apply woken_map_at, wake_w_idem).
    assert (MC : map_at wake_c cs [mkC CSignal s] = [mkC CSignal s]).
    { apply (woken_fixed wake_c); [apply woken_map_at, wake_c_idem | repeat constructor]. }
    rewrite MC. cbn [upd]. destruct S as [One Ad Wok Wts Scr Qt Len]. constructor; cbn [log queue clients ended shut workers]; eauto; try discriminate.
    + intros pc0 s0 SH X. injection X as <- <-. destruct (Scr _ _ SH OC) as [|[E P]]; auto; exfalso; destruct P as [P|[P|P]]; discriminate.
    + intros [X|X].
      * destruct (Qt (or_introl X)). split; auto. cbn [workers]. rewrite (woken_cnt_eq wake_w busy (workers p)); auto. intros []; auto.
      * injection X as ->. exfalso. destruct (shut p) eqn:SH.
        -- destruct (i_main _ _ I) as (c0 & H0 & M0). rewrite OC in H0. injection H0 as <-. destruct M0 as (_ & _ & M0). specialize (M0 SH). discriminate.
        -- destruct (Scr _ _ eq_refl OC) as [SC|[_ P]]; [contradiction | destruct P as [P|[P|P]]; discriminate].
    + intros c X. injection X as <-. apply (Len _ OC).
  - unfold at_pc in H. destruct (nth_error (workers p) i) as [[]|] eqn:E; try discriminate. injection H as <-.
    apply (safe_frame p); auto. cbn [workers]. now apply busy_upd_le with WWait.
Qed.

Lemma safe_init n s : waits_before_shutdown s -> (N.of_nat (nb_adds s) < 2 ^ 32)%N -> Safe (pool_init n [s]).
Proof.
  intros W L. constructor; cbn [pool_init workers clients log queue shut map]; eauto; try discriminate.
  - intros l1 l2 j H. destruct l1; discriminate.
  - intros pc s0 _ X. injection X as <- <-. auto.
  - intros [X|X]; [discriminate|]. injection X as ->. contradiction.
  - intros c X. injection X as <-. exact L.
Qed.

Lemma wbs_shutdown_last s : waits_before_shutdown s -> shutdown_last s.
Proof. induction s as [|[x| |] s IH]; cbn; auto. intros [->|H]; cbn; auto. contradiction. Qed.

Lemma safe_exec n tr : forall p p', 1 <= n -> Inv n p -> Gen p -> Safe p -> no_waiter_spurious tr -> exec p tr = Some p' ->
  Inv n p' /\ Gen p' /\ Safe p'.
Proof.
  induction tr as [|a tr IH]; intros p p' N1 I G S NS H; cbn [exec] in H; [injection H as <-; auto|].
  inversion NS; subst. destruct (step p a) as [q|] eqn:E; [|discriminate]. apply (IH q); auto.
  - eapply step_inv; eauto.
  - eapply gen_step; eauto.
  - eapply safe_step; eauto.
Qed.
