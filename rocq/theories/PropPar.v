(** C81: hashing in parallel gives the same result whatever the number of threads and the
    schedule.  C34 to C36 are about the pool, here its use in ft_process.c. *)
From Verif Require Import Util HeapModel CollectModel ProcessModel PoolModel PoolSpec PoolProofs PoolSafe PropPool ParModel.

(** * The calls of one client that adds, waits and shuts down *)
Definition cadds (s : list call) : list N :=
  flat_map (fun c => match c with Add x => if (x =? 0)%N then [] else [x] | _ => [] end) s.
Definition tail_ok (s : list call) : Prop := exists xs, s = map Add xs ++ [Wait; Shutdown] \/ s = [Shutdown] \/ s = [].
Record J (A : list N) (p : pool) : Prop := {
  j_one : exists c, clients p = [c] /\ adds (log p) ++ cadds (c_script c) = A /\ tail_ok (c_script c) /\
    ((c_pc c = CWait \/ c_pc c = CWoken) -> cadds (c_script c) = []);
  j_wait : forall b k a, log p = b ++ EWaitRet k :: a -> adds b = A }.

Lemma snoc_split {T} (l : list T) e b x a : l ++ [e] = b ++ x :: a -> e <> x -> exists a', l = b ++ x :: a'.
Proof.
  intros E NE. destruct a as [|y a] using rev_ind.
  - apply app_inj_tail in E. destruct E; congruence.
  - clear IHa. rewrite app_comm_cons, app_assoc in E. apply app_inj_tail in E. destruct E as (-> & _). eauto.
Qed.
Lemma snoc_cases {T} (l : list T) e b x a : l ++ [e] = b ++ x :: a -> (a = [] /\ l = b /\ e = x) \/ exists a', l = b ++ x :: a'.
Proof.
  intros E. destruct a as [|y a] using rev_ind.
  - left. apply app_inj_tail in E. tauto.
  - right. clear IHa. rewrite app_comm_cons, app_assoc in E. apply app_inj_tail in E. destruct E as (-> & _). eauto.
Qed.
(** a step that keeps the scripts, the waiting and the queued and returned events *)
Lemma J_frame A p p' : J A p ->
  (forall c, clients p = [c] -> exists c', clients p' = [c'] /\ c_script c' = c_script c /\ ((c_pc c' = CWait \/ c_pc c' = CWoken) -> (c_pc c = CWait \/ c_pc c = CWoken))) ->
  (exists l, log p' = log p ++ l /\ adds l = [] /\ forall k, ~ In (EWaitRet k) l) -> J A p'.
Proof.
  intros [(c & C & AD & T & W) JW] HC (l & L & AL & NW). destruct (HC c C) as (c' & C' & S' & P'). split.
  - exists c'. rewrite S', L, adds_app, AL, app_nil_r. repeat split; auto.
  - intros b k a E. rewrite L in E. revert a E. clear L AL. revert NW. induction l as [|e l IH] using rev_ind; intros NW a E.
    + rewrite app_nil_r in E. eauto.
    + rewrite app_assoc in E. destruct (snoc_cases _ _ _ _ _ E) as [(_ & _ & X)|(a' & X)].
      * exfalso. apply (NW k). apply in_app_iff. right. now left.
      * eapply IH; eauto. intros k' I. apply (NW k'). apply in_app_iff. now left.
Qed.
Lemma wait_clients p i : clients (wait_for_task p i) = clients p \/ clients (wait_for_task p i) = map wake_c (clients p).
Proof. unfold wait_for_task. destruct (_ && _ && _); cbn [clients]; auto. Qed.
Lemma section_clients p i : clients (section p i) = clients p \/ clients (section p i) = map wake_c (clients p).
Proof.
  unfold section. destruct (shut p); [now left|]. destruct (ended p); [apply wait_clients|].
  destruct (drop_null (queue p)); [|now left].
  exact (wait_clients (mkPool (workers p) (clients p) [] (nb_waiting p) (running p) false false (log p)) i).
Qed.
Lemma section_log p i : log (section p i) = log p \/ exists x, log (section p i) = log p ++ [EStart i x].
Proof.
  unfold section. destruct (shut p); [now left|]. destruct (ended p).
  - left. unfold wait_for_task. now destruct (_ && _ && _).
  - destruct (drop_null (queue p)); [|right; eexists; reflexivity]. left. unfold wait_for_task. now destruct (_ && _ && _).
Qed.
Lemma wake_c_script c : c_script (wake_c c) = c_script c /\ ((c_pc (wake_c c) = CWait \/ c_pc (wake_c c) = CWoken) -> (c_pc c = CWait \/ c_pc c = CWoken)).
Proof. destruct c as [[] s]; cbn; auto. Qed.
Lemma J_section A p i : J A p -> J A (section p i).
Proof.
  intros H. eapply J_frame; [exact H| |].
  - intros c C. destruct (section_clients p i) as [->| ->]; rewrite C; [eauto|]. exists (wake_c c). split; [reflexivity|]. apply wake_c_script.
  - destruct (section_log p i) as [->|(x & ->)]; [exists []; rewrite app_nil_r; cbn; auto|].
    exists [EStart i x]. repeat split; auto. intros k [X|[]]. discriminate.
Qed.
Lemma upd_one {T} (c d : T) j : nth_error [c] j = Some d -> j = 0 /\ d = c.
Proof. destruct j as [|[|j]]; cbn; intros H; inversion H; auto. Qed.
Lemma J_step A p a p' : J A p -> step p a = Some p' -> J A p'.
Proof.
  intros H S. destruct a as [i|j|j ws cs|i|j]; cbn [step] in S.
  - unfold worker_step in S. destruct (nth_error (workers p) i) as [[]|]; try discriminate; injection S as <-; try (apply J_section; auto).
    + eapply J_frame; [exact H|intros c C; cbn [clients]; eauto|]. cbn [log]. eexists. split; [reflexivity|]. split; auto. intros k [X|[]]. discriminate.
    + eapply J_frame; [exact H|intros c C; cbn [clients]; eauto|]. cbn [log]. exists []. rewrite app_nil_r. cbn. auto.
  - pose proof H as H0. destruct H as [(c & C & AD & T & W) JW]. unfold client_step in S. rewrite C in S.
    destruct (nth_error [c] j) as [d|] eqn:E; [|discriminate]. apply upd_one in E. destruct E as (-> & ->).
    destruct c as [pc s]. cbn [c_pc c_script] in *. destruct pc; try discriminate.
    + destruct s as [|[x| |] s]; try discriminate.
      * injection S as <-. split.
        -- exists (mkC CSignal s). cbn [clients upd log c_script c_pc]. split; auto. split.
           { rewrite adds_app, <- app_assoc. rewrite <- AD.
             assert (X : adds [EAdd 0 x] ++ cadds s = cadds (Add x :: s)) by (unfold adds, cadds; cbn [flat_map]; now rewrite app_nil_r).
             now rewrite X. }
           split; [|intros [X|X]; discriminate]. destruct T as ([|y xs] & [X|[X|X]]); try discriminate. injection X as <- ->. exists xs. now left.
        -- cbn [log]. intros b k a X. destruct (snoc_cases _ _ _ _ _ X) as [(_ & _ & Y)|(a' & Y)]; [discriminate|eauto].
      * assert (ST : s = [Shutdown]). { destruct T as ([|y xs] & [X|[X|X]]); try discriminate; now injection X. } subst s.
        destruct (_ || _); injection S as <-; split; cbn [clients upd log]; rewrite ?C.
        -- exists (mkC CWait [Shutdown]). cbn [c_script c_pc cadds flat_map] in *. split; auto. split; auto. split; [exists []; auto|auto].
        -- exact JW.
        -- exists (mkC CRun [Shutdown]). cbn [c_script c_pc cadds flat_map] in *. rewrite adds_silent by reflexivity. split; auto. split; auto. split; [exists []; auto|auto].
        -- intros b k a X. destruct (snoc_cases _ _ _ _ _ X) as [(_ & Y & _)|(a' & Y)]; [|eauto].
           subst b. cbn [cadds flat_map] in AD. now rewrite app_nil_r in AD.
      * injection S as <-. split; cbn [clients upd log map].
        -- exists (mkC CJoin s). cbn [c_script c_pc cadds flat_map] in *. split; auto. split; auto. split.
           { destruct T as ([|y xs] & [X|[X|X]]); try discriminate; injection X as ->; exists []; auto. }
           intros [X|X]; discriminate.
        -- exact JW.
    + injection S as <-. assert (Z : cadds s = []) by auto. rewrite Z, app_nil_r in AD. split; cbn [clients upd log].
      * exists (mkC CRun s). cbn [c_script c_pc]. rewrite adds_silent by reflexivity. rewrite Z, app_nil_r. split; auto.
      * intros b k a X. destruct (snoc_cases _ _ _ _ _ X) as [(_ & Y & _)|(a' & Y)]; [subst b; auto|eauto].
    + destruct (forallb _ _); [|discriminate]. injection S as <-. eapply J_frame; [exact H0| |].
      * intros c' C'. cbn [clients upd]. rewrite C in C'. injection C' as <-. eexists. split; [reflexivity|]. cbn [c_script c_pc]. split; auto. intros [X|X]; discriminate.
      * cbn [log]. eexists. split; [reflexivity|]. split; auto. intros k [X|[]]. discriminate.
  - pose proof H as H0. destruct H as [(c & C & AD & T & W) JW]. unfold signal_step in S. rewrite C in S.
    destruct (nth_error [c] j) as [[pc s]|] eqn:E; [|discriminate]. apply upd_one in E. destruct E as (-> & <-). destruct pc; try discriminate.
    destruct (_ || _); [|discriminate]. injection S as <-. eapply J_frame; [exact H0| |].
    + intros c' C'. cbn [clients]. rewrite C in C'. injection C' as <-.
      pose proof (woken_map_at wake_c cs [mkC CSignal s] wake_c_idem) as WK. inversion WK as [|? b ? l' HB HL EQ1 EQ2]; subst. inversion HL; subst.
      exists (mkC CRun s). cbn [upd]. split; auto. split; auto. cbn. intros [X|X]; discriminate.
    + cbn [log]. exists []. rewrite app_nil_r. cbn. auto.
  - destruct (at_pc _ _ _); [|discriminate]. injection S as <-. eapply J_frame; [exact H|intros c C; cbn [clients]; eauto|]. cbn [log]. exists []. rewrite app_nil_r. cbn. auto.
  - pose proof H as H0. destruct H as [(c & C & AD & T & W) JW]. rewrite C in S.
    destruct (nth_error [c] j) as [[pc s]|] eqn:E; [|discriminate]. apply upd_one in E. destruct E as (-> & <-). destruct pc; try discriminate.
    injection S as <-. eapply J_frame; [exact H0| |].
    + intros c' C'. cbn [clients]. rewrite C in C'. injection C' as <-. rewrite ?C. eexists. cbn [upd]. split; [reflexivity|]. cbn. auto.
    + cbn [log]. exists []. rewrite app_nil_r. cbn. auto.
Qed.
Lemma J_exec A : forall tr p p', J A p -> exec p tr = Some p' -> J A p'.
Proof.
  induction tr as [|a tr IH]; intros p p' H E; cbn [exec] in E; [injection E as <-; auto|].
  destruct (step p a) as [q|] eqn:S; [|discriminate]. eauto using J_step.
Qed.

Lemma cadds_main ts : cadds (main_calls ts) = addresses ts.
Proof.
  unfold main_calls, cadds. rewrite flat_map_app. cbn [flat_map app]. rewrite app_nil_r. unfold addresses.
  induction (seq 0 (length ts)) as [|k l IH]; [reflexivity|]. cbn [map flat_map]. rewrite IH. reflexivity.
Qed.
Lemma J_init n ts : J (addresses ts) (pool_init n [main_calls ts]).
Proof.
  split.
  - exists (mkC CRun (main_calls ts)). cbn [pool_init clients map log c_script c_pc]. split; auto. split; [apply cadds_main|]. split; [exists (addresses ts); now left|].
    intros [X|X]; discriminate.
  - cbn [pool_init log]. intros b k a E. destruct b; discriminate.
Qed.
Lemma main_waits xs : waits_before_shutdown (map Add xs ++ [Wait; Shutdown]).
Proof. induction xs; cbn; auto. Qed.
Lemma main_adds xs : nb_adds (map Add xs ++ [Wait; Shutdown]) = length xs.
Proof. unfold nb_adds. rewrite filter_app. cbn [filter]. rewrite app_nil_r. induction xs; cbn [map filter length]; auto. Qed.
Lemma addresses_length ts : length (addresses ts) = length ts.
Proof. unfold addresses. now rewrite map_length, seq_length. Qed.
Lemma addresses_nodup ts : NoDup (addresses ts).
Proof.
  unfold addresses. generalize 0. induction (length ts) as [|n IH]; intros k; cbn [seq map]; constructor; auto.
  intros X. apply in_map_iff in X. destruct X as (y & E & I). apply in_seq in I. lia.
Qed.

(** * Callbacks commute *)
Lemma fold_perm {A B} (f : A -> B -> A) : (forall a x y, f (f a x) y = f (f a y) x) ->
  forall l m, Permutation l m -> forall a, fold_left f l a = fold_left f m a.
Proof.
  intros C. induction 1; intros a; cbn [fold_left]; auto; [now rewrite C|]. now rewrite IHPermutation1.
Qed.
Section Callbacks.
Variable hash_of : file -> option N.
Lemma upd_comm {A} (l : list A) : forall i j a b, i <> j -> upd (upd l i a) j b = upd (upd l j b) i a.
Proof. induction l as [|x l IH]; intros [|i] [|j] a b H; cbn [upd]; auto; try congruence. f_equal. apply IH. congruence. Qed.
Lemma hash_at_val v i e : fs_val (hash_at hash_of v i e) = fs_val e.
Proof. unfold hash_at. destruct (fs_val e =? v)%Z; auto. destruct (nth_error _ _); auto. Qed.
Lemma hash_cell_file k : k_file (hash_cell hash_of k) = k_file k.
Proof. unfold hash_cell. destruct k as [h [f|]]; cbn; auto. now destruct (hash_of f). Qed.
Lemma hash_at_comm v i w j e : hash_at hash_of w j (hash_at hash_of v i e) = hash_at hash_of v i (hash_at hash_of w j e).
Proof.
  destruct (Z.eqb_spec (fs_val e) v) as [E1|E1]; [destruct (Z.eqb_spec (fs_val e) w) as [E2|E2]|].
  - assert (VW : w = v) by congruence. rewrite VW. clear E2 VW. destruct (Nat.eq_dec i j) as [->|NE]; [auto|].
    unfold hash_at. rewrite (proj2 (Z.eqb_eq _ _) E1).
    destruct (nth_error (fs_arr e) i) as [k1|] eqn:N1, (nth_error (fs_arr e) j) as [k2|] eqn:N2; cbn [fs_val fs_arr fs_nb]; rewrite ?(proj2 (Z.eqb_eq _ _) E1);
      rewrite ?nth_error_upd_neq by auto; rewrite ?N1, ?N2; auto. f_equal. now rewrite upd_comm.
  - apply Z.eqb_neq in E2. unfold hash_at at 1. rewrite hash_at_val, E2. unfold hash_at at 3. now rewrite E2.
  - apply Z.eqb_neq in E1. unfold hash_at at 2. rewrite E1. unfold hash_at at 2. now rewrite hash_at_val, E1.
Qed.
Lemma hashed_inv v i w j e : hashed hash_of w j (hash_at hash_of v i e) = hashed hash_of w j e.
Proof.
  unfold hashed. rewrite hash_at_val. f_equal. unfold hash_at. destruct (fs_val e =? v)%Z; auto. destruct (nth_error (fs_arr e) i) as [k|] eqn:NI; auto. cbn [fs_arr].
  destruct (Nat.eq_dec i j) as [->|NE]; [|now rewrite nth_error_upd_neq].
  rewrite nth_error_upd_eq by (eapply nth_error_Some_lt; eauto). rewrite NI. pose proof (hash_cell_file k) as F. destruct (hash_cell hash_of k), k. cbn in F. now subst.
Qed.
Lemma existsb_map {A B} (f : B -> bool) (g : A -> B) l : existsb f (map g l) = existsb (fun x => f (g x)) l.
Proof. induction l; cbn; auto. now rewrite IHl. Qed.
Lemma existsb_ext {A} (f g : A -> bool) l : (forall x, f x = g x) -> existsb f l = existsb g l.
Proof. intros H. induction l; cbn; auto. now rewrite H, IHl. Qed.
Lemma callback_comm m x y : callback hash_of (callback hash_of m x) y = callback hash_of (callback hash_of m y) x.
Proof.
  destruct m as [t c], x as [v i], y as [w j]. cbn [callback fst snd]. f_equal.
  - rewrite !map_map. apply map_ext. intros e. apply hash_at_comm.
  - rewrite !existsb_map. rewrite (existsb_ext _ (hashed hash_of w j) t) by (intros; apply hashed_inv).
    rewrite (existsb_ext (fun x => hashed hash_of v i (hash_at hash_of w j x)) (hashed hash_of v i) t) by (intros; apply hashed_inv).
    destruct (existsb (hashed hash_of v i) t), (existsb (hashed hash_of w j) t); lia.
Qed.

Definition at_address (ts : list task) (m : memory) (x : N) : memory :=
  match nth_error ts (pred (N.to_nat x)) with Some tk => callback hash_of m tk | None => m end.
Lemma effect_finishes ts : forall l m, effect hash_of ts m l = fold_left (at_address ts) (finishes l) m.
Proof.
  induction l as [|e l IH]; intros m; [reflexivity|]. cbn [effect fold_left]. destruct e; cbn [finishes flat_map app fold_left]; apply IH.
Qed.
Lemma run_addresses_aux : forall ts pre m, fold_left (at_address (pre ++ ts)) (map (fun k => N.of_nat (S k)) (seq (length pre) (length ts))) m = fold_left (callback hash_of) ts m.
Proof.
  induction ts as [|tk ts IH]; intros pre m; [reflexivity|]. cbn [length seq map fold_left]. unfold at_address at 2. rewrite Nat2N.id. cbn [pred].
  rewrite nth_error_app2 by lia. rewrite Nat.sub_diag. cbn [nth_error].
  specialize (IH (pre ++ [tk]) (callback hash_of m tk)). rewrite <- app_assoc in IH. cbn [app] in IH. rewrite app_length in IH. cbn [length] in IH. rewrite Nat.add_1_r in IH. exact IH.
Qed.
Lemma run_addresses ts m : fold_left (at_address ts) (addresses ts) m = fold_left (callback hash_of) ts m.
Proof. exact (run_addresses_aux ts [] m). Qed.

(** ** the tasks together *)
Definition at_entry (e : fsize) (tk : task) : fsize := hash_at hash_of (fst tk) (snd tk) e.
Definition counts (t : table) (tk : task) : bool := existsb (hashed hash_of (fst tk) (snd tk)) t.
Lemma callbacks : forall ts t c, fold_left (callback hash_of) ts (t, c) =
  (map (fun e => fold_left at_entry ts e) t, (c + N.of_nat (length (filter (counts t) ts)))%N).
Proof.
  induction ts as [|[v i] ts IH]; intros t c; [cbn [fold_left filter length]; rewrite map_id; f_equal; lia|].
  cbn [fold_left callback fst snd]. rewrite IH. rewrite map_map. f_equal. cbn [filter].
  assert (E : filter (counts (map (hash_at hash_of v i) t)) ts = filter (counts t) ts).
  { apply filter_ext. intros [w j]. unfold counts. cbn [fst snd]. rewrite existsb_map. apply existsb_ext. intros. apply hashed_inv. }
  rewrite E. unfold counts at 2. cbn [fst snd]. destruct (existsb (hashed hash_of v i) t); cbn [length]; lia.
Qed.
Lemma other_value ts : forall e, Forall (fun tk : task => fst tk <> fs_val e) ts -> fold_left at_entry ts e = e.
Proof.
  induction ts as [|[v i] ts IH]; intros e F; [reflexivity|]. inversion F; subst. cbn [fold_left]. unfold at_entry at 2. cbn [fst snd] in *.
  unfold hash_at. destruct (Z.eqb_spec (fs_val e) v); [congruence|]. auto.
Qed.
Lemma cell_tasks_val e : Forall (fun tk : task => fst tk = fs_val e) (cell_tasks e).
Proof. unfold cell_tasks. rewrite Forall_forall. intros tk I. apply in_map_iff in I. destruct I as (i & <- & _). reflexivity. Qed.
Lemma at_cells v nb : forall suf pre (P := fun i => match nth_error (pre ++ suf) i with Some (mkChk _ (Some _)) => true | _ => false end),
  fold_left at_entry (map (pair v) (filter P (seq (length pre) (length suf)))) (mkFs v (map (hash_cell hash_of) pre ++ suf) nb) =
  mkFs v (map (hash_cell hash_of) (pre ++ suf)) nb.
Proof.
  induction suf as [|k suf IH]; intros pre P; [cbn; now rewrite !app_nil_r|]. cbn [length seq filter].
  assert (PK : P (length pre) = match k_file k with Some _ => true | None => false end).
  { unfold P. rewrite nth_error_app2 by lia. rewrite Nat.sub_diag. cbn. destruct k as [h [f|]]; auto. }
  specialize (IH (pre ++ [k])). cbv zeta in IH. rewrite <- app_assoc in IH. cbn [app] in IH. rewrite app_length, Nat.add_1_r in IH. rewrite map_app in IH. cbn [map] in IH. rewrite <- app_assoc in IH. cbn [app] in IH.
  fold P in IH. destruct (P (length pre)) eqn:B.
  - cbn [map fold_left]. unfold at_entry at 2. cbn [fst snd]. unfold hash_at. cbn [fs_val fs_arr fs_nb]. rewrite Z.eqb_refl.
    rewrite nth_error_app2 by (rewrite map_length; lia). rewrite map_length, Nat.sub_diag. cbn [nth_error].
    replace (upd (map (hash_cell hash_of) pre ++ k :: suf) (length pre) (hash_cell hash_of k)) with (map (hash_cell hash_of) pre ++ hash_cell hash_of k :: suf); [exact IH|].
    rewrite <- (map_length (hash_cell hash_of) pre) at 1. rewrite <- (Nat.add_0_r (length (map _ pre))). now rewrite upd_app_r.
  - assert (HK : hash_cell hash_of k = k). { destruct k as [h [f|]]; cbn in PK; [discriminate|reflexivity]. } rewrite HK in IH. exact IH.
Qed.
Lemma own_tasks e : fold_left at_entry (cell_tasks e) e = mkFs (fs_val e) (map (hash_cell hash_of) (fs_arr e)) (fs_nb e).
Proof. destruct e as [v arr nb]. exact (at_cells v nb arr []). Qed.
Lemma all_tasks json : forall L e, NoDup (map fs_val L) -> In e L ->
  fold_left at_entry (flat_map (fun e => if should_hash json e then cell_tasks e else []) L) e =
  (if should_hash json e then mkFs (fs_val e) (map (hash_cell hash_of) (fs_arr e)) (fs_nb e) else e).
Proof.
  assert (OT : forall L v, ~ In v (map fs_val L) -> Forall (fun tk : task => fst tk <> v) (flat_map (fun e => if should_hash json e then cell_tasks e else []) L)).
  { intros L v NI. rewrite Forall_forall. intros tk I. apply in_flat_map in I. destruct I as (d & ID & I). destruct (should_hash json d); [|contradiction].
    pose proof (cell_tasks_val d) as F. rewrite Forall_forall in F. rewrite (F tk I). intros <-. apply NI. now apply in_map. }
  induction L as [|d L IH]; intros e ND I; [contradiction|]. cbn [map] in ND. inversion ND as [|? ? NI ND']; subst. cbn [flat_map]. rewrite fold_left_app.
  destruct I as [->|I].
  - destruct (should_hash json e); [|cbn [fold_left]; apply other_value; apply OT; auto].
    rewrite own_tasks. now rewrite other_value by (apply OT; auto).
  - rewrite (other_value (if should_hash json d then cell_tasks d else []) e); [now apply IH|]. destruct (should_hash json d); [|constructor]. eapply Forall_impl; [|apply cell_tasks_val].
    cbn. intros tk -> X. apply NI. rewrite X. now apply in_map.
Qed.
(** cells whose file can be hashed *)
Definition good (k : chk) : bool := match k_file k with Some f => match hash_of f with Some _ => true | None => false end | None => false end.
Lemma good_tasks t e : NoDup (map fs_val t) -> In e t ->
  length (filter (counts t) (cell_tasks e)) = length (filter good (fs_arr e)).
Proof.
  intros ND I.
  assert (C : forall i, counts t (fs_val e, i) = match nth_error (fs_arr e) i with Some k => good k | None => false end).
  { intros i. unfold counts. cbn [fst snd]. destruct (existsb _ t) eqn:X.
    - apply existsb_exists in X. destruct X as (d & ID & X). unfold hashed in X. apply andb_true_iff in X. destruct X as (V & X). apply Z.eqb_eq in V.
      assert (d = e). { revert ND ID I V. clear. induction t as [|a t IH]; intros ND ID I V; [contradiction|]. cbn [map] in ND. inversion ND; subst.
        destruct ID as [->|ID], I as [->|I]; auto; [exfalso; apply H1; rewrite V; now apply in_map|exfalso; apply H1; rewrite <- V; now apply in_map]. }
      subst d. destruct (nth_error (fs_arr e) i) as [[h [f|]]|]; cbn; congruence.
    - destruct (nth_error (fs_arr e) i) as [k|] eqn:NI; auto. destruct (good k) eqn:G; auto. exfalso.
      assert (T : existsb (hashed hash_of (fs_val e) i) t = true); [|congruence]. apply existsb_exists. exists e. split; auto. unfold hashed. rewrite Z.eqb_refl, NI.
      destruct k as [h [f|]]; cbn in G; [exact G|discriminate]. }
  unfold cell_tasks. revert C. generalize (counts t) (fs_val e). intros cc v. intros C.
  assert (AUX : forall suf pre, fs_arr e = pre ++ suf ->
     length (filter cc (map (pair v) (filter (fun i => match nth_error (fs_arr e) i with Some (mkChk _ (Some _)) => true | _ => false end) (seq (length pre) (length suf))))) = length (filter good suf)).
  { induction suf as [|k suf IH]; intros pre E; [reflexivity|]. cbn [length seq filter].
    specialize (IH (pre ++ [k])). rewrite <- app_assoc in IH. cbn [app] in IH. rewrite app_length, Nat.add_1_r in IH. specialize (IH E).
    assert (NK : nth_error (fs_arr e) (length pre) = Some k) by (rewrite E, nth_error_app2 by lia; now rewrite Nat.sub_diag). rewrite NK.
    destruct k as [h [f|]]; cbn [good k_file].
    - cbn [map filter]. rewrite C, NK. cbn [good k_file]. destruct (hash_of f); cbn [length]; auto.
    - exact IH. }
  exact (AUX (fs_arr e) [] eq_refl).
Qed.
Lemma good_all json t : NoDup (map fs_val t) -> forall L, incl L t ->
  length (filter (counts t) (flat_map (fun e => if should_hash json e then cell_tasks e else []) L)) =
  length (filter good (flat_map fs_arr (filter (should_hash json) L))).
Proof.
  intros ND. induction L as [|e L IH]; intros I; [reflexivity|]. cbn [flat_map filter]. rewrite filter_app, app_length.
  rewrite IH by (intros x X; apply I; now right). destruct (should_hash json e); cbn [flat_map]; [|reflexivity].
  rewrite filter_app, app_length. f_equal. apply good_tasks; auto. apply I. now left.
Qed.
End Callbacks.

(** * C81 *)
(** Whatever the number of threads and the schedule, when napr_threadpool_wait returns every
    chosen cell holds the hash of its file, no other cell has changed, and the number of
    files processed is that of the files that could be hashed.
    Missing for the full claim: a spurious return of the wait, see
    [parallel_hashing_refuted], and 2^32 tasks and more. *)
Theorem parallel_hashing_partial : forall (hash_of : file -> option N) iter json t n tr p before c after,
  1 <= n -> Permutation (iter t) t -> NoDup (map fs_val t) ->
  (N.of_nat (length (tasks_of iter json t)) < 2 ^ 32)%N -> no_waiter_spurious tr ->
  exec (pool_init n [main_calls (tasks_of iter json t)]) tr = Some p ->
  log p = before ++ EWaitRet c :: after ->
  effect hash_of (tasks_of iter json t) (t, 0%N) before =
    (map (fun e => if should_hash json e
                   then mkFs (fs_val e) (map (fun k => match k_file k with
                                                       | Some f => match hash_of f with Some hv => mkChk hv (Some f) | None => k end
                                                       | None => k end) (fs_arr e)) (fs_nb e)
                   else e) t,
     N.of_nat (length (filter (fun k => match k_file k with
                                        | Some f => match hash_of f with Some _ => true | None => false end
                                        | None => false end) (flat_map fs_arr (filter (should_hash json) t))))).
Proof.
  intros hash_of iter json t n tr p before c after N1 IT ND LT NS EX LG.
  pose proof (J_exec _ _ _ _ (J_init n (tasks_of iter json t)) EX) as JJ.
  pose proof (j_wait _ _ JJ _ _ _ LG) as AD.
  assert (PM : Permutation (adds before) (finishes before)).
  { eapply (wait_returns_after_all_partial n (main_calls (tasks_of iter json t)) tr p); eauto; [apply main_waits|].
    unfold main_calls. now rewrite main_adds, addresses_length. }
  rewrite AD in PM. rewrite effect_finishes.
  rewrite <- (fold_perm (at_address hash_of (tasks_of iter json t))) with (l := addresses (tasks_of iter json t)) by
    (auto; intros a x y; unfold at_address; destruct (nth_error _ (pred (N.to_nat x))), (nth_error _ (pred (N.to_nat y))); auto using callback_comm).
  rewrite run_addresses, callbacks. f_equal.
  - apply map_ext_in. intros e I. unfold tasks_of. rewrite (all_tasks hash_of json (iter t) e); [reflexivity| |].
    + eapply Permutation_NoDup; [|exact ND]. apply Permutation_map. now apply Permutation_sym.
    + eapply Permutation_in; [apply Permutation_sym; exact IT|exact I].
  - rewrite N.add_0_l. f_equal. unfold tasks_of. rewrite good_all; auto; [|intros x X; eapply Permutation_in; eauto].
    assert (PF : Permutation (filter (good hash_of) (flat_map fs_arr (filter (should_hash json) (iter t)))) (filter (good hash_of) (flat_map fs_arr (filter (should_hash json) t)))).
    { assert (FP : forall (A : Type) (f : A -> bool) l m, Permutation l m -> Permutation (filter f l) (filter f m)).
      { intros A f l m H. induction H; cbn [filter]; auto; [destruct (f x); auto|destruct (f y), (f x); auto using perm_swap|eauto using Permutation_trans]. }
      apply FP. apply Permutation_flat_map. apply FP. exact IT. }
    exact (Permutation_length PF).
Qed.
(** ... so it is the result of the sequential [dispatch] used in the model of a run *)
Corollary parallel_is_sequential : forall (hash_of : file -> option N) iter json t n tr p before c after,
  1 <= n -> Permutation (iter t) t -> NoDup (map fs_val t) ->
  (N.of_nat (length (tasks_of iter json t)) < 2 ^ 32)%N -> no_waiter_spurious tr ->
  exec (pool_init n [main_calls (tasks_of iter json t)]) tr = Some p ->
  log p = before ++ EWaitRet c :: after ->
  fst (effect hash_of (tasks_of iter json t) (t, 0%N) before) = dispatch hash_of json t.
Proof. intros. erewrite parallel_hashing_partial; eauto. Qed.

(** No two threads are ever at work on the same cell, in any schedule whatsoever. *)
Lemma nodup_sub {A} (l m : list A) : subseq l m -> NoDup m -> NoDup l.
Proof.
  assert (I : forall (l m : list A) x, subseq l m -> In x l -> In x m).
  { intros l' m' x. induction 1; intros X; [contradiction| |right; auto]. destruct X; [now left|right; auto]. }
  induction 1; intros ND; [constructor| |]; inversion ND; subst; auto. constructor; eauto.
Qed.
Lemma distinct_work n ts tr p i j x y : exec (pool_init n [main_calls ts]) tr = Some p ->
  nth_error (workers p) i = Some (WProc x) -> nth_error (workers p) j = Some (WProc y) -> i <> j ->
  x <> y /\ exists a b, x = N.of_nat (S a) /\ y = N.of_nat (S b) /\ a < length ts /\ b < length ts.
Proof.
  intros EX WI WJ NE.
  pose proof (gen_exec _ _ _ (gen_init n [main_calls ts]) EX) as G.
  pose proof (J_exec _ _ _ _ (J_init n ts) EX) as JJ. destruct (j_one _ _ JJ) as (c & _ & AD & _).
  assert (NS : NoDup (finishes (log p) ++ inproc (workers p))).
  { eapply Permutation_NoDup; [apply (g_perm _ G)|]. eapply nodup_sub; [eapply subseq_drop_tail; apply (g_sub _ G)|].
    assert (X : NoDup (adds (log p) ++ cadds (c_script c))) by (rewrite AD; apply addresses_nodup).
    revert X. generalize (adds (log p)) (cadds (c_script c)). clear. induction l as [|a l IH]; intros m X; [constructor|]. cbn in X. inversion X; subst.
    constructor; [|eapply IH; eauto]. intros Y. apply H1. apply in_app_iff. now left. }
  assert (IN : forall z, In z (inproc (workers p)) -> exists k, z = N.of_nat (S k) /\ k < length ts).
  { intros z HZ. assert (IA : In z (starts (log p))). { eapply Permutation_in; [apply Permutation_sym, (g_perm _ G)|]. apply in_app_iff. now right. }
    assert (IB : In z (adds (log p))).
    { revert IA. generalize (subseq_drop_tail _ _ _ (g_sub _ G)). clear. induction 1; intros X; [contradiction| |right; auto]. destruct X; [now left|right; auto]. }
    assert (IC : In z (addresses ts)) by (rewrite <- AD; apply in_app_iff; now left).
    unfold addresses in IC. apply in_map_iff in IC. destruct IC as (k & <- & IK). apply in_seq in IK. exists k. lia. }
  assert (XY : x <> y /\ In x (inproc (workers p)) /\ In y (inproc (workers p))).
  { assert (N2 : NoDup (inproc (workers p))).
    { revert NS. generalize (finishes (log p)). clear. induction l as [|a l IH]; intros X; auto. cbn in X. inversion X; auto. }
    revert N2 WI WJ NE. generalize (workers p). clear. revert i j. intros i j l. revert i j.
    assert (HI : forall l k z, nth_error l k = Some (WProc z) -> In z (inproc l)).
    { intros l' k z E. apply nth_error_In in E. unfold inproc. apply in_flat_map. exists (WProc z). split; auto. now left. }
    induction l as [|w l IH]; intros [|i] [|j] N2 WI WJ NE; cbn [nth_error] in *; try discriminate; try congruence.
    - injection WI as ->. cbn in N2. inversion N2; subst. pose proof (HI _ _ _ WJ). split; [intros ->; contradiction|]. cbn. auto.
    - injection WJ as ->. cbn in N2. inversion N2; subst. pose proof (HI _ _ _ WI). split; [intros ->; contradiction|]. cbn. auto.
    - assert (N3 : NoDup (inproc l)). { unfold inproc in N2. cbn [flat_map] in N2. destruct w; cbn [ip app] in N2; auto. now inversion N2. }
      destruct (IH i j N3 WI WJ) as (A & B & C); [congruence|]. split; auto. unfold inproc in *. cbn [flat_map]. rewrite !in_app_iff. auto. }
  destruct XY as (NXY & IX & IY). destruct (IN x IX) as (a & -> & LA). destruct (IN y IY) as (b & -> & LB). split; [exact NXY|]. exists a, b. auto.
Qed.
Theorem no_shared_cell : forall iter json t n tr p i j x y,
  Permutation (iter t) t -> NoDup (map fs_val t) ->
  exec (pool_init n [main_calls (tasks_of iter json t)]) tr = Some p ->
  nth_error (workers p) i = Some (WProc x) -> nth_error (workers p) j = Some (WProc y) -> i <> j ->
  exists a b, nth_error (tasks_of iter json t) (pred (N.to_nat x)) = Some a /\
              nth_error (tasks_of iter json t) (pred (N.to_nat y)) = Some b /\ a <> b.
Proof.
  intros iter json t n tr p i j x y IT ND EX WI WJ NE.
  set (ts := tasks_of iter json t) in *.
  destruct (distinct_work n ts tr p i j x y EX WI WJ NE) as (NXY & a & b & -> & -> & LA & LB). rewrite !Nat2N.id. cbn [pred].
  destruct (nth_error_lt_Some ts a LA) as (ta & TA). destruct (nth_error_lt_Some ts b LB) as (tb & TB). exists ta, tb. split; auto. split; auto. intros ->.
  assert (NT : NoDup ts).
  { unfold ts, tasks_of. assert (NI : NoDup (map fs_val (iter t))). { eapply Permutation_NoDup; [|exact ND]. apply Permutation_map. now apply Permutation_sym. }
    revert NI. generalize (iter t). clear. intros L0. induction L0 as [|e L IH]; intros NI; [constructor|]. cbn [map] in NI. inversion NI; subst. cbn [flat_map].
    assert (NA : forall (l m : list task), NoDup l -> NoDup m -> (forall x, In x l -> ~ In x m) -> NoDup (l ++ m)).
    { induction l as [|q l IHl]; intros m A B C; auto. cbn [app]. inversion A; subst. constructor.
      - rewrite in_app_iff. intros [X|X]; [contradiction|]. eapply C; [now left|exact X].
      - apply IHl; auto. intros x X. apply C. now right. }
    apply NA; [|auto|].
    - destruct (should_hash json e); [|constructor]. unfold cell_tasks. apply FinFun.Injective_map_NoDup; [intros ? ? X; now injection X|]. apply NoDup_filter, seq_NoDup.
    - intros q Q Q'. destruct (should_hash json e); [|contradiction]. pose proof (cell_tasks_val e) as F. rewrite Forall_forall in F. apply F in Q.
      apply in_flat_map in Q'. destruct Q' as (d & ID & Q'). destruct (should_hash json d); [|contradiction]. pose proof (cell_tasks_val d) as F'. rewrite Forall_forall in F'. apply F' in Q'.
      apply H1. rewrite <- Q, Q'. now apply in_map. }
  apply NXY. f_equal. f_equal. eapply (proj1 (NoDup_nth_error ts)); eauto. congruence.
Qed.

(** * Where it fails *)
(** POSIX allows the wait to return at once: the hashes are then never computed. *)
Definition hf (n : N) : file := mkFile [n] 7 false.
Definition par_table : table := [mkFs 7 [mkChk 9 (Some (hf 1)); mkChk 8 (Some (hf 2)); mkChk 9 (Some (hf 3))] 3].
Definition par_hash (f : file) : option N := match f_path f with [3%N] => None | _ => Some 5%N end.
Definition add3 : list act := [Client 0; Signal 0 [] []; Client 0; Signal 0 [] []; Client 0; Signal 0 [] []].
Theorem parallel_hashing_refuted :
  let ts := tasks_of (fun t => t) false par_table in
  exists p, exec (pool_init 2 [main_calls ts]) (add3 ++ [Client 0; SpuriousClient 0; Client 0]) = Some p /\
    In (EWaitRet 0) (log p) /\ effect par_hash ts (par_table, 0%N) (log p) = (par_table, 0%N) /\
    dispatch par_hash false par_table <> par_table.
Proof. eexists. split; [vm_compute; reflexivity|]. split; [vm_compute; auto|]. split; [reflexivity|]. vm_compute. discriminate. Qed.
(** the hypotheses are met: two workers, the third file cannot be hashed *)
Example parallel_case :
  let ts := tasks_of (fun t => t) false par_table in
  exists p, exec (pool_init 2 [main_calls ts]) (add3 ++ [Worker 1; Worker 0; Client 0; Worker 0; Worker 0; Worker 1; Worker 0; Worker 1; Worker 0; Client 0]) = Some p /\
    In (EWaitRet 0) (log p) /\
    effect par_hash ts (par_table, 0%N) (log p) = ([mkFs 7 [mkChk 5 (Some (hf 1)); mkChk 5 (Some (hf 2)); mkChk 9 (Some (hf 3))] 3], 2%N).
Proof. eexists. split; [vm_compute; reflexivity|]. split; [vm_compute; auto 15|]. reflexivity. Qed.

Print Assumptions parallel_hashing_partial.
Print Assumptions parallel_is_sequential.
Print Assumptions no_shared_cell.
Print Assumptions parallel_hashing_refuted.
