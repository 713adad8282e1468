(** Proofs about threads that mark paths on one cache handle. *)
From Verif Require Import Util PageModel MarkModel MarkSpec.

Definition inside (p : pos) : Prop := match p with Between | MLock _ => False | _ => True end.
(** the paths of a thread that are in the table *)
Definition landed (th : thread) (p : bytes) : Prop := In (p, true) (t_done th) \/ t_pos th = MUnlock p true.

Record inv (v0 : list bytes) (s : st) : Prop := {
  i_excl : forall t th, nth_error (threads s) t = Some th -> (inside (t_pos th) <-> lock s = Some t);
  i_lock : forall t, lock s = Some t -> t < length (threads s);
  i_vis : forall p, In p (vis s) <-> In p v0 \/ exists t th, nth_error (threads s) t = Some th /\ landed th p;
  i_store : forall t th p seen, nth_error (threads s) t = Some th -> t_pos th = MStore p seen -> seen = vis s;
  i_busy : forall t, busy s = Some t -> exists th p seen, nth_error (threads s) t = Some th /\ t_pos th = MStore p seen }.

Lemma inv_start v calls : inv v (start v calls).
Proof.
  assert (Q : forall t th, nth_error (threads (start v calls)) t = Some th -> t_pos th = Between /\ t_done th = []).
  { intros t th E. apply nth_error_In in E. cbn [start threads] in E. apply in_map_iff in E as (c & <- & _). auto. }
  constructor; cbn [start vis busy lock]; try discriminate.
  - intros t th E. destruct (Q _ _ E) as (-> & _). cbn. split; [tauto|discriminate].
  - intros p. split; [auto|]. intros [H|(t & th & E & L)]; [exact H|]. destruct (Q _ _ E) as (P & D). unfold landed in L. rewrite P, D in L.
    destruct L as [[]|X]; discriminate X.
  - intros t th p seen E P. destruct (Q _ _ E) as (X & _). congruence.
Qed.

Lemma upd_split {B} (l : list B) t x u y : t < length l -> nth_error (upd l t x) u = Some y -> u = t /\ y = x \/ u <> t /\ nth_error l u = Some y.
Proof.
  intros L E. destruct (Nat.eq_dec t u) as [<-|NE].
  - rewrite nth_error_upd_eq in E by lia. left. split; congruence.
  - rewrite nth_error_upd_neq in E by lia. right. split; [congruence|exact E].
Qed.
Lemma landed_upd l t th th' p : nth_error l t = Some th ->
  (exists u x, nth_error (upd l t th') u = Some x /\ landed x p) <-> (landed th' p \/ exists u x, u <> t /\ nth_error l u = Some x /\ landed x p).
Proof.
  intros N. assert (LT : t < length l) by (apply nth_error_Some; congruence). split.
  - intros (u & x & E & L). destruct (upd_split _ _ _ _ _ LT E) as [(-> & ->)|(NE & E')]; eauto 7.
  - intros [L|(u & x & NE & E & L)].
    + exists t, th'. rewrite nth_error_upd_eq by lia. auto.
    + exists u, x. rewrite nth_error_upd_neq by lia. auto.
Qed.
Lemma landed_here l t th p : nth_error l t = Some th ->
  (exists u x, nth_error l u = Some x /\ landed x p) <-> (landed th p \/ exists u x, u <> t /\ nth_error l u = Some x /\ landed x p).
Proof.
  intros N. split.
  - intros (u & x & E & L). destruct (Nat.eq_dec u t) as [->|NE]; [left; congruence|eauto 7].
  - intros [L|(u & x & NE & E & L)]; eauto.
Qed.

(** thread [t] becomes [th'] *)
Lemma inv_upd v0 s t th th' vis' busy' lock' : inv v0 s -> nth_error (threads s) t = Some th ->
  (inside (t_pos th') <-> lock' = Some t) ->
  (lock' = lock s \/ (lock s = None /\ lock' = Some t) \/ (lock s = Some t /\ lock' = None)) ->
  (forall p, In p vis' <-> In p (vis s) \/ landed th' p) ->
  (forall p, landed th p -> landed th' p) ->
  (vis' = vis s \/ lock s = Some t) ->
  (forall p seen, t_pos th' = MStore p seen -> seen = vis') ->
  (busy' = None \/ (busy' = Some t /\ exists p seen, t_pos th' = MStore p seen) \/ (busy' = busy s /\ busy s <> Some t)) ->
  inv v0 (mkSt vis' busy' lock' (upd (threads s) t th')).
Proof.
  intros I N EX LK VS LD KV ST BU. assert (LT : t < length (threads s)) by (apply nth_error_Some; congruence).
  constructor; cbn [vis busy lock threads].
  - intros u x E. destruct (upd_split _ _ _ _ _ LT E) as [(-> & ->)|(NE & E')]; [exact EX|]. rewrite (i_excl _ _ I _ _ E').
    destruct LK as [->|[(L & ->)|(L & ->)]]; [reflexivity| |]; rewrite L; split; congruence.
  - intros u E. rewrite length_upd. destruct LK as [->|[(L & ->)|(L & ->)]]; [now apply (i_lock _ _ I)| |discriminate].
    injection E as <-. exact LT.
  - intros p. rewrite VS, (i_vis _ _ I p), (landed_upd _ _ _ _ _ N), (landed_here _ _ _ _ N). specialize (LD p). tauto.
  - intros u x p seen E P. destruct (upd_split _ _ _ _ _ LT E) as [(-> & ->)|(NE & E')]; [eauto|].
    destruct KV as [->|L]; [now apply (i_store _ _ I _ _ _ _ E' P)|].
    pose proof (proj1 (i_excl _ _ I _ _ E')) as X. rewrite P in X. specialize (X Logic.I). congruence.
  - intros u B. destruct BU as [->|[(-> & p & seen & P)|(-> & NB)]]; [discriminate| |].
    + injection B as <-. exists th', p, seen. rewrite nth_error_upd_eq by lia. auto.
    + destruct (i_busy _ _ I _ B) as (x & p & seen & E & P). exists x, p, seen. rewrite nth_error_upd_neq by congruence. auto.
Qed.

Lemma step_inv v0 s t mem : inv v0 s -> match step s t mem with Next s' => inv v0 s' | Blocked => True | Bad => False end.
Proof.
  intros I. unfold step. destruct (nth_error (threads s) t) as [th|] eqn:N; [|exact Logic.I]. cbv zeta.
  pose proof (i_excl _ _ I _ _ N) as EX.
  assert (NB : (forall p seen, t_pos th <> MStore p seen) -> busy s <> Some t).
  { intros NP B. destruct (i_busy _ _ I t B) as (th' & p' & seen' & N' & P'). rewrite N in N'. injection N' as <-. now apply (NP p' seen'). }
  assert (AL : forall p, landed th p -> In p (vis s)) by (intros p L; apply (i_vis _ _ I); eauto).
  destruct (t_pos th) as [|p|p|p|p seen|p ok] eqn:P; cbn [inside] in EX.
  - destruct (t_todo th) as [|p r]; [exact Logic.I|]. eapply inv_upd; eauto; cbn [t_pos t_done inside]; auto.
    + intros q. split; [auto|]. intros [H|[H|H]]; [exact H| |discriminate]. apply AL. now left.
    + intros q [H|H]; [now left|congruence].
    + discriminate.
    + right. right. split; [reflexivity|]. apply NB. congruence.
  - destruct (lock s) as [o|] eqn:L; [exact Logic.I|]. eapply inv_upd; eauto; cbn [t_pos t_done inside]; auto.
    + tauto.
    + intros q. split; [auto|]. intros [H|[H|H]]; [exact H| |discriminate]. apply AL. now left.
    + intros q [H|H]; [now left|congruence].
    + discriminate.
    + right. right. split; [reflexivity|]. apply NB. congruence.
  - eapply inv_upd; eauto; cbn [t_pos t_done].
    + destruct mem; exact EX.
    + intros q. split; [auto|]. intros [H|[H|H]]; [exact H| |destruct mem; discriminate H]. apply AL. now left.
    + intros q [H|H]; [now left|congruence].
    + destruct mem; discriminate.
    + right. right. split; [reflexivity|]. apply NB. congruence.
  - destruct (busy s) as [u|] eqn:B.
    + destruct (i_busy _ _ I u B) as (x & q & seen & E & PX). pose proof (proj1 (i_excl _ _ I _ _ E)) as X. rewrite PX in X.
      specialize (X Logic.I). rewrite (proj1 EX Logic.I) in X. injection X as <-. rewrite N in E. injection E as <-. congruence.
    + eapply inv_upd; eauto; cbn [t_pos t_done inside]; auto.
      * intros q. split; [auto|]. intros [H|[H|H]]; [exact H| |discriminate H]. apply AL. now left.
      * intros q [H|H]; [now left|congruence].
      * congruence.
      * right. left. split; [reflexivity|]. eauto.
  - pose proof (i_store _ _ I _ _ _ _ N P) as ->. eapply inv_upd; eauto; cbn [t_pos t_done inside]; auto.
    + intros q. split; [intros [->|H]; [right; right; reflexivity|auto]|]. intros [H|[H|H]]; [now right| |injection H as ->; now left].
      right. apply AL. now left.
    + intros q [H|H]; [now left|congruence].
    + right. apply EX. exact Logic.I.
    + discriminate.
  - eapply inv_upd; eauto; cbn [t_pos t_done inside].
    + split; [intros []|discriminate].
    + right. right. split; [apply EX; exact Logic.I|reflexivity].
    + intros q. split; [auto|]. intros [H|[[H|H]|H]]; [exact H| | |discriminate H].
      * injection H as -> ->. apply AL. right. exact P.
      * apply AL. now left.
    + intros q [H|H]; [left; now right|]. rewrite P in H. injection H as -> ->. left. now left.
    + discriminate.
    + right. right. split; [reflexivity|]. apply NB. congruence.
Qed.
Lemma play_inv v0 : forall l s, inv v0 s -> match play s l with Next s' => inv v0 s' | Blocked => True | Bad => False end.
Proof.
  induction l as [|(t & mem) l IH]; intros s I; [exact I|]. cbn [play]. pose proof (step_inv v0 s t mem I) as SI.
  destruct (step s t mem) as [s1| |]; [now apply IH|exact Logic.I|exact SI].
Qed.

(** ** The calls of a thread stay its calls *)
Lemma map_upd {B C} (f : B -> C) : forall (l : list B) t a b, nth_error l t = Some a -> f b = f a -> map f (upd l t b) = map f l.
Proof. induction l as [|y l IH]; intros [|t] a b N E; try discriminate; cbn in *; [injection N as ->; now rewrite E|]. now rewrite (IH t a b). Qed.
Lemma step_calls s t mem s' : step s t mem = Next s' -> map calls_of (threads s') = map calls_of (threads s).
Proof.
  unfold step. destruct (nth_error (threads s) t) as [th|] eqn:N; [|discriminate]. cbv zeta. intros E.
  destruct (t_pos th) as [|p|p|p|p seen|p ok] eqn:P.
  - destruct (t_todo th) as [|p r] eqn:TD; [discriminate|]. injection E as <-. cbn [threads]. apply map_upd with (a := th); auto.
    unfold calls_of. cbn [t_done t_pos t_todo]. rewrite P, TD. reflexivity.
  - destruct (lock s); [discriminate|]. injection E as <-. cbn [threads]. apply map_upd with (a := th); auto. unfold calls_of. cbn [t_done t_pos t_todo]. now rewrite P.
  - injection E as <-. cbn [threads]. apply map_upd with (a := th); auto. unfold calls_of. cbn [t_done t_pos t_todo]. rewrite P. now destruct mem.
  - destruct (busy s); [discriminate|]. injection E as <-. cbn [threads]. apply map_upd with (a := th); auto. unfold calls_of. cbn [t_done t_pos t_todo]. now rewrite P.
  - injection E as <-. cbn [threads]. apply map_upd with (a := th); auto. unfold calls_of. cbn [t_done t_pos t_todo]. now rewrite P.
  - injection E as <-. cbn [threads]. apply map_upd with (a := th); auto. unfold calls_of. cbn [t_done t_pos t_todo map fst rev]. rewrite P.
    now rewrite <- app_assoc.
Qed.
Lemma play_calls : forall l s s', play s l = Next s' -> map calls_of (threads s') = map calls_of (threads s).
Proof.
  induction l as [|(t & mem) l IH]; intros s s' E; [injection E as <-; reflexivity|]. cbn [play] in E.
  destruct (step s t mem) as [s1| |] eqn:ST; try discriminate. rewrite (IH _ _ E). eapply step_calls; eauto.
Qed.

(** ** With memory every call succeeds *)
Definition good (th : thread) : Prop := Forall (fun e => snd e = true) (t_done th) /\ match t_pos th with MUnlock _ ok => ok = true | _ => True end.
Lemma Forall_upd {B} (P : B -> Prop) : forall (l : list B) t x, Forall P l -> P x -> Forall P (upd l t x).
Proof. induction l as [|y l IH]; intros [|t] x F Px; cbn; auto; inversion F; subst; constructor; auto. Qed.
Lemma step_good s t s' : Forall good (threads s) -> step s t true = Next s' -> Forall good (threads s').
Proof.
  intros F. unfold step. destruct (nth_error (threads s) t) as [th|] eqn:N; [|discriminate]. cbv zeta. intros E.
  assert (G : good th). { rewrite Forall_forall in F. apply F. eapply nth_error_In; eauto. } destruct G as (G1 & G2).
  destruct (t_pos th) as [|p|p|p|p seen|p ok] eqn:P.
  - destruct (t_todo th) as [|p r] eqn:TD; [discriminate|]. injection E as <-. apply Forall_upd; auto. split; [exact G1|exact Logic.I].
  - destruct (lock s); [discriminate|]. injection E as <-. apply Forall_upd; auto. split; [exact G1|exact Logic.I].
  - injection E as <-. apply Forall_upd; auto. split; [exact G1|exact Logic.I].
  - destruct (busy s); [discriminate|]. injection E as <-. apply Forall_upd; auto. split; [exact G1|exact Logic.I].
  - injection E as <-. apply Forall_upd; auto. split; cbn; auto.
  - injection E as <-. apply Forall_upd; auto. split; cbn [t_done t_pos]; [constructor; auto|exact Logic.I].
Qed.
Lemma play_good : forall l s s', memory_lasts l -> Forall good (threads s) -> play s l = Next s' -> Forall good (threads s').
Proof.
  induction l as [|(t & mem) l IH]; intros s s' ML F E; [injection E as <-; exact F|]. apply Forall_cons_iff in ML. destruct ML as (M1 & ML).
  cbn [snd] in M1. subst mem. cbn [play] in E. destruct (step s t true) as [s1| |] eqn:ST; try discriminate. apply (IH s1 s' ML); [eapply step_good; eauto|exact E].
Qed.

(** ** Somebody can always go on, and every execution ends *)
Lemma progress v0 s mem : inv v0 s -> ~ finished s -> exists t s', step s t mem = Next s'.
Proof.
  intros I NF. destruct (lock s) as [t|] eqn:L.
  - pose proof (i_lock _ _ I t L) as LT. destruct (nth_error (threads s) t) as [th|] eqn:N; [|apply nth_error_None in N; lia].
    pose proof (proj2 (i_excl _ _ I _ _ N) L) as IN. exists t. pose proof (step_inv v0 s t mem I) as SI.
    destruct (step s t mem) as [s'| |] eqn:E; [eauto| |destruct SI]. exfalso. unfold step in E. rewrite N in E. cbv zeta in E.
    destruct (t_pos th); cbn [inside] in IN; try contradiction; try discriminate E. destruct (busy s); discriminate E.
  - assert (D : exists th, In th (threads s) /\ ~ (t_todo th = [] /\ t_pos th = Between)).
    { unfold finished in NF. clear - NF. induction (threads s) as [|y k IH]; [destruct NF; constructor|].
      assert (Y : (t_todo y = [] /\ t_pos y = Between) \/ ~ (t_todo y = [] /\ t_pos y = Between)).
      { destruct (t_todo y); [|right; intros (X & _); discriminate]. destruct (t_pos y); try (right; intros (_ & X); discriminate). now left. }
      destruct Y as [Y|Y]; [|exists y; split; [now left|exact Y]]. destruct IH as (th & Ith & Z); [intros Fk; apply NF; now constructor|].
      exists th. split; [now right|exact Z]. }
    destruct D as (th & Ith & U). apply In_nth_error in Ith as (t & N). exists t. unfold step. rewrite N. cbv zeta.
    pose proof (i_excl _ _ I _ _ N) as EX. rewrite L in EX.
    destruct (t_pos th) eqn:P; cbn [inside] in EX; try (destruct EX as (EX & _); specialize (EX Logic.I); discriminate EX).
    + destruct (t_todo th) as [|p r]; [tauto|]. eauto.
    + rewrite L. eauto.
Qed.
Definition weight (p : pos) : nat := match p with Between => 0 | MUnlock _ _ => 1 | MStore _ _ => 2 | MLook _ => 3 | MDup _ => 4 | MLock _ => 5 end.
Definition tweight (th : thread) : nat := 6 * length (t_todo th) + weight (t_pos th).
Definition total (s : st) : nat := list_sum (map tweight (threads s)).
Lemma sum_upd {B} (f : B -> nat) : forall (l : list B) t a b, nth_error l t = Some a -> list_sum (map f (upd l t b)) + f a = list_sum (map f l) + f b.
Proof.
  induction l as [|y l IH]; intros [|t] a b N; try discriminate; cbn in *; [injection N as ->; lia|]. specialize (IH t a b N). unfold list_sum in *. cbn. lia.
Qed.
Lemma step_weight s t mem s' : step s t mem = Next s' -> total s' < total s.
Proof.
  unfold step. destruct (nth_error (threads s) t) as [th|] eqn:N; [|discriminate]. cbv zeta. intros E.
  assert (G : forall th', tweight th' < tweight th -> list_sum (map tweight (upd (threads s) t th')) < total s).
  { intros th' W. unfold total. pose proof (sum_upd tweight (threads s) t th th' N). lia. }
  unfold tweight in G at 1 2. destruct (t_pos th) as [|p|p|p|p seen|p ok] eqn:P; cbn [weight] in G.
  - destruct (t_todo th) as [|p r] eqn:TD; [discriminate|]. injection E as <-. apply G. cbn. lia.
  - destruct (lock s); [discriminate|]. injection E as <-. apply G. cbn [t_todo t_pos weight]. lia.
  - injection E as <-. apply G. cbn [t_todo t_pos]. destruct mem; cbn [weight]; lia.
  - destruct (busy s); [discriminate|]. injection E as <-. apply G. cbn [t_todo t_pos weight]. lia.
  - injection E as <-. apply G. cbn [t_todo t_pos weight]. lia.
  - injection E as <-. apply G. cbn [t_todo t_pos weight]. lia.
Qed.
Lemma play_weight : forall l s s', play s l = Next s' -> length l + total s' <= total s.
Proof.
  induction l as [|(t & mem) l IH]; intros s s' E; [injection E as <-; cbn; lia|]. cbn [play] in E.
  destruct (step s t mem) as [s1| |] eqn:ST; try discriminate. pose proof (step_weight _ _ _ _ ST). specialize (IH _ _ E). cbn [length]. lia.
Qed.
Lemma total_start v calls : total (start v calls) = 6 * length (concat calls).
Proof.
  unfold total, start. cbn [threads]. rewrite map_map. induction calls as [|c calls IH]; [reflexivity|].
  cbn [map concat]. rewrite app_length. unfold list_sum in *. cbn [fold_right]. rewrite IH. unfold tweight. cbn. lia.
Qed.
