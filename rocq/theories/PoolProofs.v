(** Invariants of the thread pool. *)
From Verif Require Import Util PoolModel PoolSpec.

(** * Counting *)
Definition cnt {A} (f : A -> bool) (l : list A) : nat := length (filter f l).
Lemma cnt_nil {A} (f : A -> bool) : cnt f [] = 0. Proof. reflexivity. Qed.
Lemma cnt_cons {A} (f : A -> bool) a l : cnt f (a :: l) = (if f a then 1 else 0) + cnt f l.
Proof. unfold cnt. cbn [filter]. destruct (f a); reflexivity. Qed.
Lemma cnt_upd {A} (f : A -> bool) l i a b :
  nth_error l i = Some a ->
  cnt f (upd l i b) + (if f a then 1 else 0) = cnt f l + (if f b then 1 else 0).
Proof.
  revert i; induction l as [|x l IH]; intros [|i] H; cbn [nth_error upd] in *; try discriminate.
  - inversion H; subst. rewrite !cnt_cons. lia.
  - rewrite !cnt_cons. specialize (IH _ H). lia.
Qed.
Lemma cnt_pos {A} (f : A -> bool) l : 0 < cnt f l <-> exists i a, nth_error l i = Some a /\ f a = true.
Proof.
  split.
  - induction l as [|x l IH]; intros H; [rewrite cnt_nil in H; lia|]. rewrite cnt_cons in H.
    destruct (f x) eqn:F; [exists 0, x; auto|]. destruct IH as (i & a & Hi & Ha); [lia|].
    exists (Datatypes.S i), a. auto.
  - intros (i & a & Hi & Ha). revert i Hi. induction l as [|x l IH]; intros [|i] Hi; cbn [nth_error] in Hi; try discriminate.
    + inversion Hi; subst. rewrite cnt_cons, Ha. lia.
    + rewrite cnt_cons. specialize (IH _ Hi). lia.
Qed.
Lemma cnt_zero {A} (f : A -> bool) l : cnt f l = 0 -> forall i a, nth_error l i = Some a -> f a = false.
Proof.
  intros H i a Hi. destruct (f a) eqn:F; auto. exfalso.
  assert (0 < cnt f l) by (apply cnt_pos; eauto). lia.
Qed.
Lemma upd_upd {A} (l : list A) i a b : upd (upd l i a) i b = upd l i b.
Proof. revert i; induction l as [|x l IH]; intros [|i]; cbn [upd]; auto. now rewrite IH. Qed.
Lemma upd_same {A} (l : list A) i a : nth_error l i = Some a -> upd l i a = l.
Proof. revert i; induction l as [|x l IH]; intros [|i] H; cbn [upd nth_error] in *; try discriminate; auto.
  - congruence. - now rewrite (IH _ H). Qed.

(** * Waking some threads *)
Definition woken {A} (g : A -> A) : list A -> list A -> Prop := Forall2 (fun a b => b = a \/ b = g a).
Lemma woken_refl {A} (g : A -> A) l : woken g l l.
Proof. induction l; constructor; auto. Qed.
Lemma woken_map {A} (g : A -> A) l : woken g l (map g l).
Proof. induction l; constructor; auto. Qed.
Lemma woken_upd {A} (g : A -> A) l m i a :
  (forall x, g (g x) = g x) -> woken g l m -> nth_error m i = Some a -> woken g l (upd m i (g a)).
Proof.
  intros G W. revert i. induction W as [|x y l m R W IH]; intros [|i] H; cbn [nth_error upd] in *; try discriminate.
  - inversion H; subst. constructor; auto. destruct R; subst; [auto | rewrite G; auto].
  - constructor; auto. now apply IH.
Qed.
Lemma woken_map_at {A} (g : A -> A) is l :
  (forall x, g (g x) = g x) -> woken g l (map_at g is l).
Proof.
  intros G. unfold map_at. assert (K : forall m, woken g l m -> woken g l
    (fold_left (fun l i => match nth_error l i with Some a => upd l i (g a) | None => l end) is m)).
  { induction is as [|i is IH]; intros m W; cbn [fold_left]; auto. apply IH.
    destruct (nth_error m i) eqn:E; auto. now apply woken_upd. }
  apply K, woken_refl.
Qed.
Lemma woken_length {A} (g : A -> A) l m : woken g l m -> length m = length l.
Proof. intros W. induction W; cbn [length]; auto. Qed.
Lemma woken_nth {A} (g : A -> A) l m i a :
  woken g l m -> nth_error l i = Some a -> nth_error m i = Some a \/ nth_error m i = Some (g a).
Proof.
  intros W. revert i. induction W as [|x y l m R W IH]; intros [|i] H; cbn [nth_error] in *; try discriminate.
  - inversion H; subst. destruct R; subst; auto. - auto.
Qed.
Lemma woken_nth_inv {A} (g : A -> A) l m i b :
  woken g l m -> nth_error m i = Some b -> exists a, nth_error l i = Some a /\ (b = a \/ b = g a).
Proof.
  intros W. revert i. induction W as [|x y l m R W IH]; intros [|i] H; cbn [nth_error] in *; try discriminate.
  - inversion H; subst. eauto. - auto.
Qed.
Lemma woken_cnt_eq {A} (g : A -> A) f l m :
  (forall a, f (g a) = f a) -> woken g l m -> cnt f m = cnt f l.
Proof. intros F W. induction W as [|x y l m R W IH]; auto. rewrite !cnt_cons, IH. destruct R; subst; [|rewrite F]; reflexivity. Qed.
Lemma woken_cnt_le {A} (g : A -> A) f l m :
  (forall a, f a = true -> f (g a) = true) -> woken g l m -> cnt f l <= cnt f m.
Proof. intros F W. induction W as [|x y l m R W IH]; auto. rewrite !cnt_cons. destruct R; subst; [lia|].
  specialize (F x). destruct (f x); [rewrite F by auto|]; lia. Qed.
Lemma woken_cnt_ge {A} (g : A -> A) f l m :
  (forall a, f (g a) = true -> f a = true) -> woken g l m -> cnt f m <= cnt f l.
Proof. intros F W. induction W as [|x y l m R W IH]; auto. rewrite !cnt_cons. destruct R; subst; [lia|].
  specialize (F x). destruct (f (g x)); [rewrite F by auto|]; lia. Qed.
Lemma woken_upd_both {A} (g : A -> A) l m i b : woken g l m -> woken g (upd l i b) (upd m i b).
Proof. intros W. revert i. induction W as [|x y l m R W IH]; intros [|i]; cbn [upd]; constructor; auto. apply IH. Qed.

Lemma wake_w_idem w : wake_w (wake_w w) = wake_w w. Proof. destruct w; auto. Qed.
Lemma wake_c_idem c : wake_c (wake_c c) = wake_c c. Proof. destruct c as [[] s]; auto. Qed.

(** * Classes of positions *)
Definition inwait (w : wpc) : bool := match w with WWait | WWoken => true | _ => false end.
Definition busy (w : wpc) : bool := match w with WStart | WProc _ | WRelock => true | _ => false end.
Definition active (w : wpc) : bool := match w with WStart | WProc _ | WRelock | WWoken => true | _ => false end.
Definition done (w : wpc) : bool := match w with WDone => true | _ => false end.
Definition sig (c : client) : bool := match c_pc c with CSignal => true | _ => false end.

Lemma cnt_split l : cnt inwait l + cnt busy l + cnt done l = length l.
Proof. induction l as [|w l IH]; auto. rewrite !cnt_cons. cbn [length]. destruct w; cbn [inwait busy done]; lia. Qed.
Lemma busy_active l : cnt busy l <= cnt active l.
Proof. induction l as [|w l IH]; auto. rewrite !cnt_cons. destruct w; cbn [busy active]; lia. Qed.

(** * The invariant: one client (number 0) waits, the others only add *)
Definition main_ok (p : pool) (c : client) : Prop :=
  match c_pc c with
  | CRun | CSignal => running p = false /\ (shut p = false -> shutdown_last (c_script c)) /\ (shut p = true -> c_script c = [])
  | CWait => running p = true /\ ended p = false /\ shut p = false /\ shutdown_last (c_script c) /\
             (0 < cnt active (workers p) \/ 0 < cnt sig (clients p))
  | CWoken => running p = true /\ shut p = false /\ shutdown_last (c_script c)
  | CJoin => running p = false /\ shut p = true /\ c_script c = []
  end.
Definition adder_ok (c : client) : Prop := (c_pc c = CRun \/ c_pc c = CSignal) /\ only_adds (c_script c).
Definition main_woken (p : pool) : Prop := exists s, nth_error (clients p) 0 = Some (mkC CWoken s).

Record Inv (n : nat) (p : pool) : Prop := {
  i_n : length (workers p) = n;
  i_nb : nb_waiting p = cnt inwait (workers p);
  i_main : exists c, nth_error (clients p) 0 = Some c /\ main_ok p c;
  i_adders : forall j c, nth_error (clients p) (Datatypes.S j) = Some c -> adder_ok c;
  i_noshut : shut p = false -> cnt done (workers p) = 0;
  i_shut : shut p = true -> cnt blocked_w (workers p) = 0;
  i_queue : queue p <> [] -> shut p = false ->
            0 < cnt active (workers p) \/ 0 < cnt sig (clients p) \/ main_woken p;
  i_ended : ended p = true -> queue p = [] /\ cnt busy (workers p) = 0 }.

Lemma init_inv n s0 ss :
  shutdown_last s0 -> Forall only_adds ss -> Inv n (pool_init n (s0 :: ss)).
Proof.
  intros S0 SS. assert (Z : forall f : wpc -> bool, f WStart = false -> cnt f (repeat WStart n) = 0).
  { intros f F. induction n; cbn [repeat]; auto. rewrite cnt_cons, F. auto. }
  constructor; unfold pool_init; cbn [workers clients queue nb_waiting running ended shut]; try discriminate.
  - apply repeat_length.
  - now rewrite Z.
  - exists (mkC CRun s0). split; [reflexivity|]. cbn. split; [auto | split; [auto | discriminate]].
  - intros j c H. cbn [map nth_error] in H. apply nth_error_In, in_map_iff in H. destruct H as (s & <- & I).
    rewrite Forall_forall in SS. split; cbn [c_pc c_script]; auto.
  - intros _. now apply Z.
  - intros H. contradiction.
Qed.

(** * Steps of a worker *)
(** what is needed about the other workers when worker [i] enters its critical section *)
Record Sec (n : nat) (p : pool) (i : nat) : Prop := {
  s_n : length (workers p) = n;
  s_i : i < n;
  s_nb : nb_waiting p = cnt inwait (upd (workers p) i WDone);
  s_main : exists c, nth_error (clients p) 0 = Some c /\
             match c_pc c with
             | CWait => running p = true /\ ended p = false /\ shut p = false /\ shutdown_last (c_script c)
             | _ => main_ok p c
             end;
  s_adders : forall j c, nth_error (clients p) (Datatypes.S j) = Some c -> adder_ok c;
  s_noshut : shut p = false -> cnt done (upd (workers p) i WDone) = 1;
  s_shut : shut p = true -> cnt blocked_w (upd (workers p) i WDone) = 0;
  s_ended : ended p = true -> queue p = [] /\ cnt busy (upd (workers p) i WDone) = 0 }.

Lemma cnt_refill {f : wpc -> bool} l i b : f WDone = false -> i < length l ->
  cnt f (upd l i b) = cnt f (upd l i WDone) + (if f b then 1 else 0).
Proof.
  intros F H. pose proof (cnt_upd f (upd l i WDone) i WDone b) as K. rewrite upd_upd, F in K.
  rewrite nth_error_upd_eq in K by auto. specialize (K eq_refl). lia.
Qed.
Lemma cnt_refill_done l i b : done b = false -> i < length l ->
  cnt done (upd l i b) + 1 = cnt done (upd l i WDone).
Proof.
  intros F H. pose proof (cnt_upd done (upd l i WDone) i WDone b) as K. rewrite upd_upd, F in K.
  rewrite nth_error_upd_eq in K by auto. specialize (K eq_refl). cbn [done] in K. lia.
Qed.

Lemma wake_all_main p c : nth_error (clients p) 0 = Some c ->
  nth_error (map wake_c (clients p)) 0 = Some (wake_c c).
Proof. intros H. now rewrite nth_error_map, H. Qed.

Lemma wait_for_task_inv n p i :
  Sec n p i -> queue p = [] -> shut p = false -> Inv n (wait_for_task p i).
Proof.
  intros [Sn Si Snb (c & Hc & Mc) Sa Sns Ssh Se] Q NS. specialize (Sns NS).
  unfold wait_for_task.
  assert (LI : i < length (workers p)) by lia.
  pose proof (cnt_split (upd (workers p) i WWait)) as SP. rewrite length_upd in SP.
  rewrite (cnt_refill (f:=inwait)), (cnt_refill (f:=busy)) in SP by auto. cbn [inwait busy] in SP.
  pose proof (cnt_refill_done (workers p) i WWait eq_refl LI) as DN.
  destruct (negb (ended p) && running p && (Datatypes.S (nb_waiting p) =? length (workers p))) eqn:C.
  - apply andb_prop in C as [C C3]. apply andb_prop in C as [C1 C2]. apply Nat.eqb_eq in C3.
    assert (W : woken wake_w (upd (workers p) i WWait) (upd (map wake_w (workers p)) i WWait))
      by (apply woken_upd_both, woken_map).
    constructor; cbn [workers clients queue nb_waiting running ended shut]; try congruence.
    + now rewrite length_upd, map_length.
    + rewrite (woken_cnt_eq wake_w inwait _ _) with (2 := W) by (intros []; auto).
      rewrite (cnt_refill (f:=inwait)) by auto. cbn [inwait]. lia.
    + exists (wake_c c). split; [now apply wake_all_main|].
      destruct c as [pc s]. unfold wake_c, main_ok in *. cbn [c_pc c_script] in *.
      destruct pc; cbn [c_pc c_script running ended shut workers clients] in *; try tauto.
    + intros j c' H. rewrite nth_error_map in H. destruct (nth_error (clients p) (Datatypes.S j)) as [d|] eqn:E; [|discriminate].
      injection H as <-. specialize (Sa _ _ E). destruct d as [pc s]. destruct Sa as [[A|A] B]; cbn [c_pc] in A; subst pc; split; cbn; auto.
    + intros _. rewrite (woken_cnt_eq wake_w done _ _) with (2 := W) by (intros []; auto). lia.
    + intros _. split; auto. rewrite (woken_cnt_eq wake_w busy _ _) with (2 := W) by (intros []; auto).
      rewrite (cnt_refill (f:=busy)) by auto. cbn [busy]. lia.
  - constructor; cbn [workers clients queue nb_waiting running ended shut]; try congruence.
    + now rewrite length_upd.
    + rewrite (cnt_refill (f:=inwait)) by auto. cbn [inwait]. lia.
    + exists c. split; auto. unfold main_ok in *. cbn [running ended shut workers clients].
      destruct (c_pc c); auto.
      destruct Mc as (R & E & H & L). repeat split; auto. left.
      rewrite E, R in C. cbn [negb andb] in C. apply Nat.eqb_neq in C.
      pose proof (busy_active (upd (workers p) i WWait)) as BA.
      rewrite (cnt_refill (f:=busy)) in BA by auto. cbn [busy] in BA. lia.
    + exact Sa.
    + intros _. lia.
    + intros E. destruct (Se E). split; auto. rewrite (cnt_refill (f:=busy)) by auto. cbn [busy]. lia.
Qed.

Lemma main_ok_frame p p' c :
  running p' = running p -> ended p' = ended p -> shut p' = shut p -> clients p' = clients p ->
  0 < cnt active (workers p') ->
  match c_pc c with
  | CWait => running p = true /\ ended p = false /\ shut p = false /\ shutdown_last (c_script c)
  | _ => main_ok p c
  end -> main_ok p' c.
Proof.
  intros R E S C A H. unfold main_ok in *. rewrite R, E, S. destruct (c_pc c); tauto.
Qed.

Lemma drop_null_len q : length (drop_null q) <= length q.
Proof. induction q as [|[|x] q IH]; cbn [drop_null length]; lia. Qed.

Lemma section_inv n p i : Sec n p i -> Inv n (section p i).
Proof.
  intros S. pose proof S as [Sn Si Snb (c & Hc & Mc) Sa Sns Ssh Se]. unfold section.
  assert (LI : i < length (workers p)) by lia.
  destruct (shut p) eqn:SH.
  - constructor; cbn [workers clients queue nb_waiting running ended shut]; try congruence; auto.
    + now rewrite length_upd.
    + exists c. split; auto. unfold main_ok in *. cbn [running ended shut workers clients].
      rewrite SH in *. destruct (c_pc c); auto. destruct Mc as (_ & _ & X & _). discriminate.
  - destruct (ended p) eqn:EN.
    + apply wait_for_task_inv; auto. now apply Se.
    + destruct (drop_null (queue p)) as [|x r] eqn:D.
      * apply wait_for_task_inv; auto.
        constructor; cbn [workers clients queue nb_waiting running ended shut]; auto; try congruence.
        exists c. split; auto. unfold main_ok in *. cbn [running ended shut workers clients] in *. rewrite SH, EN in *. exact Mc.
      * assert (A1 : 0 < cnt active (upd (workers p) i (WProc x))).
        { apply cnt_pos. exists i, (WProc x). split; auto. now apply nth_error_upd_eq. }
        constructor; cbn [workers clients queue nb_waiting running ended shut]; try congruence; auto.
        -- now rewrite length_upd.
        -- rewrite (cnt_refill (f:=inwait)) by auto. cbn [inwait]. lia.
        -- exists c. split; auto. apply (main_ok_frame p); cbn [workers clients running ended shut]; auto. rewrite SH, EN. exact Mc.
        -- intros _. pose proof (cnt_refill_done (workers p) i (WProc x) eq_refl LI). specialize (Sns eq_refl). lia.
Qed.

Lemma inv_sec n p i b :
  Inv n p -> nth_error (workers p) i = Some b -> done b = false ->
  Sec n (mkPool (workers p) (clients p) (queue p) (nb_waiting p - (if inwait b then 1 else 0)) (running p)
                (ended p) (shut p) (log p)) i.
Proof.
  intros [In Inb (c & Hc & Mc) Ia Ins Ish Iq Ie] Hb DB.
  assert (LI : i < length (workers p)) by (apply nth_error_Some_lt in Hb; auto).
  assert (F : forall f : wpc -> bool, f WDone = false -> cnt f (workers p) = cnt f (upd (workers p) i WDone) + (if f b then 1 else 0)).
  { intros f Hf. rewrite <- (cnt_refill (f := f)) by auto. now rewrite upd_same. }
  assert (FD : cnt done (workers p) + 1 = cnt done (upd (workers p) i WDone)).
  { rewrite <- (cnt_refill_done (workers p) i b) by auto. now rewrite upd_same. }
  constructor; cbn [workers clients queue nb_waiting running ended shut]; auto.
  - lia.
  - rewrite (F inwait eq_refl) in Inb. lia.
  - exists c. split; auto. unfold main_ok in *. cbn [workers clients running ended shut]. destruct (c_pc c); tauto.
  - intros E. specialize (Ins E). lia.
  - intros E. specialize (Ish E). rewrite (F blocked_w eq_refl) in Ish. lia.
  - intros E. destruct (Ie E) as [Q B]. split; auto. rewrite (F busy eq_refl) in B. lia.
Qed.

Lemma worker_inv n p i p' : Inv n p -> worker_step p i = Some p' -> Inv n p'.
Proof.
  intros I H. unfold worker_step in H. destruct (nth_error (workers p) i) as [b|] eqn:E; [|discriminate].
  pose proof (inv_sec n p i b I E) as S.
  assert (LI : i < length (workers p)) by (apply nth_error_Some_lt in E; auto).
  destruct b; try discriminate; injection H as <-; cbn [done inwait] in S; specialize (S eq_refl);
    try rewrite Nat.sub_0_r in S.
  - apply section_inv. destruct p. exact S.
  - destruct I as [In Inb (c & Hc & Mc) Ia Ins Ish Iq Ie].
    assert (F : forall f : wpc -> bool, f (WProc x) = f WRelock -> cnt f (upd (workers p) i WRelock) = cnt f (workers p)).
    { intros f Hf. pose proof (cnt_upd f (workers p) i (WProc x) WRelock E) as K. rewrite Hf in K. lia. }
    constructor; cbn [workers clients queue nb_waiting running ended shut]; rewrite ?(F inwait), ?(F active), ?(F done), ?(F blocked_w), ?(F busy) by auto; auto.
    + now rewrite length_upd.
    + exists c. split; auto. unfold main_ok in *. cbn [workers clients running ended shut]. rewrite F by auto. exact Mc.
  - apply section_inv. destruct p. exact S.
  - apply section_inv. exact S.
Qed.

(** * Steps of a client *)
Lemma cnt_sig_upd l j c d : nth_error l j = Some c -> sig c = sig d -> cnt sig (upd l j d) = cnt sig l.
Proof. intros H E. pose proof (cnt_upd sig l j c d H) as K. rewrite E in K. lia. Qed.

Lemma client_inv n p j p' : 1 <= n -> Inv n p -> client_step p j = Some p' -> Inv n p'.
Proof.
  intros N1 [In Inb (c0 & H0 & M0) Ia Ins Ish Iq Ie] H. unfold client_step in H.
  destruct (nth_error (clients p) j) as [c|] eqn:E; [|discriminate].
  assert (LJ : j < length (clients p)) by (apply nth_error_Some_lt in E; auto).
  destruct j as [|j].
  - (* the waiting client *)
    rewrite E in H0. injection H0 as <-. unfold main_ok in M0.
    assert (U0 : forall d, nth_error (upd (clients p) 0 d) 0 = Some d) by (intros d; apply nth_error_upd_eq; auto).
    assert (US : forall l d j, nth_error (upd l 0 d) (Datatypes.S j) = @nth_error client l (Datatypes.S j))
      by (intros l d k; apply nth_error_upd_neq; lia).
    destruct c as [pc s]. cbn [c_pc c_script] in *. destruct pc; destruct s as [|k s]; try discriminate.
    + destruct k as [x| |]; cbn [shutdown_last] in M0.
      * injection H as <-. destruct M0 as (R & A & B).
        assert (SH : shut p = false) by (destruct (shut p); auto; specialize (B eq_refl); discriminate).
        constructor; cbn [workers clients queue nb_waiting running ended shut]; auto; try congruence.
        -- exists (mkC CSignal s). split; auto. cbn. rewrite SH. split; [auto | split; [auto | congruence]].
        -- intros j c. rewrite US. apply Ia.
        -- intros _ _. right. left. apply cnt_pos. exists 0, (mkC CSignal s). auto.
      * destruct M0 as (R & A & B).
        assert (SH : shut p = false) by (destruct (shut p); auto; specialize (B eq_refl); discriminate).
        destruct (negb (int_is_zero (length (queue p))) || negb (nb_waiting p =? length (workers p))) eqn:C; injection H as <-.
        -- assert (EN : ended p = false).
           { destruct (ended p) eqn:EN; auto. exfalso. destruct (Ie eq_refl) as [Q BZ].
             rewrite Q in C. change (int_is_zero (length (@nil N))) with true in C. cbn [negb orb] in C.
             pose proof (cnt_split (workers p)). specialize (Ins SH).
             assert (X : nb_waiting p = length (workers p)) by lia. rewrite X, Nat.eqb_refl in C. discriminate. }
           assert (SG : sig (mkC CRun (Wait :: s)) = sig (mkC CWait s)) by reflexivity.
           assert (AC : 0 < cnt active (workers p) \/ 0 < cnt sig (clients p)).
           { destruct (queue p) as [|y q] eqn:Q.
             - change (int_is_zero (length (@nil N))) with true in C. cbn [negb orb] in C.
               destruct (Nat.eqb_spec (nb_waiting p) (length (workers p))) as [|NE]; [discriminate|].
               pose proof (cnt_split (workers p)). specialize (Ins SH). pose proof (busy_active (workers p)). left. lia.
             - destruct Iq as [|[|W]]; auto; try congruence. destruct W as [s' W]. rewrite E in W. discriminate. }
           constructor; cbn [workers clients queue nb_waiting running ended shut]; auto; try congruence.
           ++ exists (mkC CWait s). split; auto. cbn [main_ok c_pc c_script running ended shut workers clients].
              rewrite (cnt_sig_upd _ _ _ _ E SG). cbn. repeat split; auto.
           ++ intros j c. rewrite US. apply Ia.
           ++ intros _ _. rewrite (cnt_sig_upd _ _ _ _ E SG). destruct AC; auto.
        -- constructor; cbn [workers clients queue nb_waiting running ended shut]; auto; try congruence.
           ++ exists (mkC CRun s). split; auto. cbn. rewrite SH. split; [auto | split; [auto | congruence]].
           ++ intros j c. rewrite US. apply Ia.
           ++ intros EN. destruct (Ie EN). auto.
      * injection H as <-. destruct M0 as (R & A & B).
        assert (SH : shut p = false) by (destruct (shut p); auto; specialize (B eq_refl); discriminate).
        specialize (A SH). subst s. pose proof (woken_map wake_w (workers p)) as W.
        constructor; cbn [workers clients queue nb_waiting running ended shut]; auto; try congruence.
        -- now rewrite map_length.
        -- now rewrite (woken_cnt_eq wake_w inwait _ _) with (2 := W) by (intros []; auto).
        -- exists (mkC CJoin []). split; [apply nth_error_upd_eq; now rewrite map_length | cbn; auto].
        -- intros j c. rewrite US, nth_error_map. destruct (nth_error (clients p) (Datatypes.S j)) as [d|] eqn:X; [|discriminate].
           intros K. injection K as <-. specialize (Ia _ _ X). destruct d as [pc s]. destruct Ia as [[P|P] B']; cbn [c_pc] in P; subst pc; split; cbn; auto.
        -- intros _. destruct (cnt blocked_w (map wake_w (workers p))) eqn:Z; auto. exfalso.
           assert (P : 0 < cnt blocked_w (map wake_w (workers p))) by lia. apply cnt_pos in P. destruct P as (k & a & K1 & K2).
           rewrite nth_error_map in K1. destruct (nth_error (workers p) k) as [[]|]; try discriminate; injection K1 as <-; discriminate.
        -- intros EN. destruct (Ie EN). split; auto. now rewrite (woken_cnt_eq wake_w busy _ _) with (2 := W) by (intros []; auto).
    + injection H as <-. destruct M0 as (R & SH & L).
      constructor; cbn [workers clients queue nb_waiting running ended shut]; auto; try congruence.
      -- exists (mkC CRun []). split; auto. cbn. auto.
      -- intros j c. rewrite US. apply Ia.
      -- intros EN. destruct (Ie EN). auto.
    + injection H as <-. destruct M0 as (R & SH & L).
      constructor; cbn [workers clients queue nb_waiting running ended shut]; auto; try congruence.
      -- exists (mkC CRun (k :: s)). split; auto. cbn [main_ok c_pc c_script running ended shut workers clients]. rewrite SH. split; [auto | split; [auto | congruence]].
      -- intros j c. rewrite US. apply Ia.
      -- intros EN. destruct (Ie EN). auto.
    + destruct (forallb _ _) eqn:FB; [|discriminate]. injection H as <-. destruct M0 as (R & SH & L).
      constructor; cbn [workers clients queue nb_waiting running ended shut]; auto; try congruence.
      -- exists (mkC CRun []). split; auto. cbn. rewrite SH, R. split; [auto | split; [congruence | auto]].
      -- intros j c. rewrite US. apply Ia.
    + destruct M0 as (_ & _ & X). discriminate.
  - (* an adder *)
    destruct (Ia _ _ E) as [PC OA]. destruct c as [pc s]. cbn [c_pc c_script] in *.
    assert (X : exists x s', pc = CRun /\ s = Add x :: s').
    { destruct PC as [-> | ->]; destruct s as [|k s]; try discriminate.
      inversion OA as [|? ? [x K] ?]; subst. eauto. }
    destruct X as (x & s' & -> & ->). injection H as <-. inversion OA as [|? ? _ OA']; subst.
    constructor; cbn [workers clients queue nb_waiting running ended shut]; auto; try congruence.
    + exists c0. split; [rewrite nth_error_upd_neq by lia; auto|]. unfold main_ok in *.
      cbn [workers clients running ended shut]. destruct (c_pc c0); auto.
      destruct M0 as (A & B & C & D & _). repeat split; auto. right. apply cnt_pos. exists (Datatypes.S j), (mkC CSignal s'). split; auto. now apply nth_error_upd_eq.
    + intros i c. destruct (Nat.eq_dec i j) as [->|NE].
      * rewrite nth_error_upd_eq by auto. intros K. injection K as <-. split; cbn; auto.
      * rewrite nth_error_upd_neq by lia. apply Ia.
    + intros _ _. right. left. apply cnt_pos. exists (Datatypes.S j), (mkC CSignal s'). split; auto. now apply nth_error_upd_eq.
Qed.

(** * Waking workers and clients, the signal and spurious returns *)

Lemma map_at_keeps {A} (g : A -> A) is l k a :
  nth_error l k = Some a -> g a = a -> nth_error (map_at g is l) k = Some a.
Proof.
  intros H G. unfold map_at. revert l H. induction is as [|i is IH]; intros l H; cbn [fold_left]; auto.
  apply IH. destruct (nth_error l i) as [b|] eqn:B; auto.
  destruct (Nat.eq_dec i k) as [->|NE].
  - rewrite B in H. injection H as ->. rewrite G. apply nth_error_upd_eq. now apply nth_error_Some_lt in B.
  - now rewrite nth_error_upd_neq.
Qed.
Lemma map_at_hits {A} (g : A -> A) is l k a :
  (forall x, g (g x) = g x) -> In k is -> nth_error l k = Some a -> nth_error (map_at g is l) k = Some (g a).
Proof.
  intros G I H. unfold map_at. revert l H. induction is as [|i is IH]; intros l H; [contradiction|].
  cbn [fold_left]. destruct (Nat.eq_dec i k) as [->|NE].
  - rewrite H. apply (map_at_keeps g is). + apply nth_error_upd_eq. now apply nth_error_Some_lt in H. + apply G.
  - destruct I as [|I]; [congruence|]. apply (IH I). destruct (nth_error l i); auto. now rewrite nth_error_upd_neq.
Qed.

(** waking some workers and possibly the main client, other fields unchanged *)
Lemma wake_inv n p ws c' :
  Inv n p -> woken wake_w (workers p) ws ->
  (forall c, nth_error (clients p) 0 = Some c -> c' = c \/ c' = wake_c c) ->
  Inv n (mkPool ws (upd (clients p) 0 c') (queue p) (nb_waiting p) (running p) (ended p) (shut p) (log p)).
Proof.
  intros [In Inb (c0 & H0 & M0) Ia Ins Ish Iq Ie] W HC.
  assert (LJ : 0 < length (clients p)) by (apply nth_error_Some_lt in H0; auto).
  specialize (HC _ H0).
  assert (SG : cnt sig (upd (clients p) 0 c') = cnt sig (clients p)).
  { apply (cnt_sig_upd _ _ _ _ H0). destruct c0 as [[] ?]; destruct HC; subst; reflexivity. }
  assert (AC : cnt active (workers p) <= cnt active ws) by (apply (woken_cnt_le wake_w); auto; intros []; auto).
  constructor; cbn [workers clients queue nb_waiting running ended shut]; auto.
  - now rewrite (woken_length wake_w _ _ W).
  - now rewrite (woken_cnt_eq wake_w inwait _ _) with (2 := W) by (intros []; auto).
  - exists c'. split; [now apply nth_error_upd_eq|]. unfold main_ok in *. cbn [workers clients running ended shut].
    rewrite SG. destruct c0 as [pc s]. unfold wake_c in HC. cbn [c_pc c_script] in *.
    destruct pc; destruct HC; subst c'; cbn [c_pc c_script] in *; try tauto; intuition lia.
  - intros j c. rewrite nth_error_upd_neq by lia. apply Ia.
  - intros S. now rewrite (woken_cnt_eq wake_w done _ _) with (2 := W) by (intros []; auto); auto.
  - intros S. specialize (Ish S). assert (cnt blocked_w ws <= cnt blocked_w (workers p)); [|lia].
    apply (woken_cnt_ge wake_w); auto. intros []; auto; discriminate.
  - intros Q S. rewrite SG. destruct (Iq Q S) as [|[|(s & X)]]; try lia. right. right. rewrite H0 in X. injection X as ->.
    exists s. cbn [clients]. rewrite nth_error_upd_eq by auto. destruct HC; subst c'; reflexivity.
  - intros E. destruct (Ie E). split; auto. now rewrite (woken_cnt_eq wake_w busy _ _) with (2 := W) by (intros []; auto).
Qed.

Lemma woken_fixed {A} (g : A -> A) l m : woken g l m -> Forall (fun a => g a = a) l -> m = l.
Proof. intros W F. induction W as [|x y l m R W IH]; auto. inversion F; subst. rewrite IH by auto. destruct R; subst; congruence. Qed.

Lemma clients_woken n p m :
  Inv n p -> woken wake_c (clients p) m ->
  exists c c', nth_error (clients p) 0 = Some c /\ (c' = c \/ c' = wake_c c) /\ m = upd (clients p) 0 c'.
Proof.
  intros I W. destruct (i_main _ _ I) as (c & Hc & _).
  assert (F : forall k d, nth_error (clients p) (Datatypes.S k) = Some d -> wake_c d = d).
  { intros k d K. destruct (i_adders _ _ I _ _ K) as [[P|P] _]; destruct d as [pc sc]; cbn [c_pc] in P; subst; reflexivity. }
  destruct (clients p) as [|d l]; [discriminate|]. injection Hc as ->. inversion W as [|? y ? m' R W']; subst.
  exists c, y. split; [reflexivity|]. split; auto. cbn [upd]. f_equal. apply (woken_fixed wake_c); auto.
  apply Forall_forall. intros d D. apply In_nth_error in D as [k K]. now apply (F k).
Qed.

Lemma some_not_blocked l : 1 <= length l -> cnt blocked_w l = 0 -> cnt done l = 0 -> 0 < cnt active l.
Proof.
  intros L B D. assert (K : cnt blocked_w l + cnt done l + cnt active l = length l).
  { clear. induction l as [|w l IH]; auto. rewrite !cnt_cons. cbn [length]. destruct w; cbn [blocked_w done active]; lia. }
  lia.
Qed.
Lemma existsb_cnt {A} (f : A -> bool) l : existsb f l = false -> cnt f l = 0.
Proof. induction l as [|a l IH]; auto. cbn [existsb]. rewrite cnt_cons. destruct (f a); [discriminate|]. auto. Qed.

Lemma signal_inv n p j ws cs p' : 1 <= n -> Inv n p -> signal_step p j ws cs = Some p' -> Inv n p'.
Proof.
  intros N1 I H. unfold signal_step in H. destruct (nth_error (clients p) j) as [[pc s]|] eqn:E; [|discriminate].
  destruct pc; try discriminate. destruct (_ || _) eqn:C; [|discriminate]. injection H as <-.
  set (ws' := map_at wake_w ws (workers p)). set (cs' := map_at wake_c cs (clients p)).
  assert (WW : woken wake_w (workers p) ws') by (apply woken_map_at, wake_w_idem).
  assert (WC : woken wake_c (clients p) cs') by (apply woken_map_at, wake_c_idem).
  destruct (clients_woken n p cs' I WC) as (c & c' & Hc & R & CE).
  assert (I1 : Inv n (mkPool ws' cs' (queue p) (nb_waiting p) (running p) (ended p) (shut p) (log p))).
  { rewrite CE. apply wake_inv; auto. intros d D. rewrite Hc in D. now injection D as <-. }
  assert (Hc' : nth_error cs' 0 = Some c').
  { rewrite CE. apply nth_error_upd_eq. now apply nth_error_Some_lt in Hc. }
  assert (K : shut p = false -> 0 < cnt active ws' \/ exists s', c' = mkC CWoken s').
  { intros SH. apply orb_prop in C as [C|C]; [apply orb_prop in C as [C|C]|].
    - apply existsb_exists in C as (k & K1 & K2). unfold at_pc in K2. destruct (nth_error (workers p) k) as [b|] eqn:B; [|discriminate].
      left. apply cnt_pos. exists k, (wake_w b). split; [apply map_at_hits; auto using wake_w_idem|]. destruct b; try discriminate; reflexivity.
    - apply existsb_exists in C as (k & K1 & K2). unfold at_pc in K2. destruct (nth_error (clients p) k) as [b|] eqn:B; [|discriminate].
      destruct k as [|k].
      + right. pose proof (map_at_hits wake_c cs (clients p) 0 b wake_c_idem K1 B) as M. fold cs' in M. rewrite Hc' in M. injection M as ->.
        destruct b as [[] sb]; try discriminate. exists sb. reflexivity.
      + destruct (i_adders _ _ I _ _ B) as [[P|P] _]; unfold blocked_c in K2; rewrite P in K2; discriminate.
    - apply andb_prop in C as [C1 C2]. apply negb_true_iff in C1. apply existsb_cnt in C1.
      assert (X : cnt active (workers p) <= cnt active ws') by (apply (woken_cnt_le wake_w); auto; intros []; auto).
      left. assert (0 < cnt active (workers p)); [|lia]. apply some_not_blocked; auto.
      + now rewrite (i_n _ _ I). + now apply (i_noshut _ _ I). }
  assert (Ej : nth_error cs' j = Some (mkC CSignal s)) by (apply map_at_keeps; auto).
  assert (LJ : j < length cs') by (apply nth_error_Some_lt in Ej; auto).
  destruct I1 as [In Inb (c0 & H0 & M0) Ia Ins Ish Iq Ie]. cbn [workers clients queue nb_waiting running ended shut] in *.
  rewrite Hc' in H0. injection H0 as <-.
  constructor; cbn [workers clients queue nb_waiting running ended shut]; auto.
  - destruct j as [|j].
    + rewrite Hc' in Ej. injection Ej as ->. exists (mkC CRun s). split; [now apply nth_error_upd_eq | exact M0].
    + exists c'. split; [now rewrite nth_error_upd_neq by lia|]. unfold main_ok in *. cbn [workers clients running ended shut] in *.
      destruct (c_pc c') eqn:P; auto. destruct M0 as (A1 & A2 & A3 & A4 & _). repeat split; auto. left.
      destruct (K A3) as [|[s' X]]; auto. subst c'. discriminate.
  - intros k d. destruct j as [|j]; [rewrite nth_error_upd_neq by lia; apply Ia|].
    destruct (Nat.eq_dec k j) as [->|NE].
    + rewrite nth_error_upd_eq by auto. intros X. injection X as <-. destruct (Ia _ _ Ej) as [_ O]. split; cbn; auto.
    + rewrite nth_error_upd_neq by lia. apply Ia.
  - intros Q SH. destruct (K SH) as [|[s' X]]; auto. right. right. exists s'. subst c'. cbn [clients].
    destruct j as [|j]; [rewrite Hc' in Ej; discriminate|]. now rewrite nth_error_upd_neq by lia.
Qed.

Lemma step_inv n p a p' : 1 <= n -> Inv n p -> step p a = Some p' -> Inv n p'.
Proof.
  intros N1 I H. destruct a as [i|j|j ws cs|i|j]; cbn [step] in H.
  - eapply worker_inv; eauto.
  - eapply client_inv; eauto.
  - eapply signal_inv; eauto.
  - unfold at_pc in H. destruct (nth_error (workers p) i) as [[]|] eqn:E; try discriminate. injection H as <-.
    destruct (i_main _ _ I) as (c & Hc & _).
    assert (X : upd (clients p) 0 c = clients p) by (now apply upd_same). rewrite <- X.
    apply wake_inv; auto.
    + apply (woken_upd wake_w (workers p) (workers p) i WWait); auto using wake_w_idem, woken_refl.
    + intros d D. left. rewrite Hc in D. now injection D.
  - destruct (nth_error (clients p) j) as [[pc s]|] eqn:E; [|discriminate]. destruct pc; try discriminate. injection H as <-.
    destruct j as [|j].
    + apply wake_inv; auto using woken_refl. intros d D. rewrite E in D. injection D as <-. right. reflexivity.
    + destruct (i_adders _ _ I _ _ E) as [[P|P] _]; discriminate.
Qed.

Lemma exec_inv n tr : forall p p', 1 <= n -> Inv n p -> exec p tr = Some p' -> Inv n p'.
Proof.
  induction tr as [|a tr IH]; intros p p' N1 I H; cbn [exec] in H; [now injection H as <-|].
  destruct (step p a) as [q|] eqn:S; [|discriminate]. eapply IH; [auto | | exact H]. eapply step_inv; eauto.
Qed.
