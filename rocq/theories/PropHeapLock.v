(** Property theorems for threads that insert into one heap (C121, C122). *)
From Verif Require Import Util HeapModel HeapSpec HeapProofs PropHeap HeapLockModel HeapLockSpec HeapLockProofs.
Local Open Scope nat_scope.

(** ** C121 *)

(** Whatever the interleaving of the single accesses: nothing undefined happens, and whenever
    no call is under way the heap is what one thread would have built by making the calls that
    have returned one after the other, each thread's calls in its own order. *)
Theorem concurrent_inserts : forall (A : Type) (cmp : A -> A -> Z) calls l, all_safe calls -> memory_lasts l ->
  match play cmp (start calls) l with
  | Bad => False
  | Blocked => True
  | Next s => lock s = None -> exists order, as_if cmp s order /\
      (forall t th, nth_error (threads s) t = Some th -> by_thread t order = t_done th) /\ (forall e, In e order -> fst e < length (threads s))
  end.
Proof.
  intros A cmp calls l SF ML. pose proof (play_sound cmp calls l (start calls) ML (start_sound cmp calls SF)) as S.
  destruct (play cmp (start calls) l) as [s| |]; auto. intros L. destruct S as ((order & h & M & I) & _). exists order.
  split; [eapply inv_as_if; eauto|]. split; [|eapply inv_tids; eauto]. intros t th N. rewrite (i_done _ _ _ _ _ I t th N). unfold landed.
  destruct (t_pos th) eqn:P; try reflexivity. exfalso. pose proof (proj1 (i_excl _ _ _ _ _ I _ _ N)) as X. rewrite P in X. specialize (X Logic.I). congruence.
Qed.

(** When all calls have returned, every datum is in the heap exactly as often as it was
    inserted, and taking everything out yields it in descending order. *)
Theorem all_inserted : forall (A : Type) (cmp : A -> A -> Z) calls l s, all_safe calls -> memory_lasts l ->
  play cmp (start calls) l = Next s -> finished s ->
  exists h, contents s = map Some h /\ Permutation h (map snd (concat calls)) /\
    (total_preorder cmp -> exists h' ys, heap_run cmp (mkHeap h (maxi s)) (repeat HExtract (length h) ++ [HExtract]) = HOk (h', map Some ys ++ [None]) /\
       Permutation h ys /\ StronglySorted (fun a b => (cmp b a <= 0)%Z) ys).
Proof.
  intros A cmp calls l s SF ML E F. pose proof (play_sound cmp calls l (start calls) ML (start_sound cmp calls SF)) as S. rewrite E in S.
  destruct S as ((order & h & M & I) & PR). assert (L : lock s = None).
  { destruct (lock s) as [t|] eqn:L; [|reflexivity]. exfalso. pose proof (i_lock _ _ _ _ _ I t L) as LT. destruct (nth_error (threads s) t) as [th|] eqn:N; [|apply nth_error_None in N; lia].
    pose proof (proj2 (i_excl _ _ _ _ _ I _ _ N) L) as IN. unfold finished in F. rewrite Forall_forall in F. destruct (F th (nth_error_In _ _ N)) as (_ & P). rewrite P in IN. destruct IN. }
  destruct (i_free _ _ _ _ _ I L) as (C & S1 & S2 & R). exists h. split; [unfold contents; rewrite C; now apply map_seq_rep|]. split.
  - rewrite (inv_perm _ _ _ _ _ I), concat_map, <- PR. clear - F. unfold finished in F. induction F as [|th k (T & P) F IH]; [constructor|]. cbn [map concat].
    apply Permutation_app; [|exact IH]. unfold landed, program. rewrite T, P. cbn. rewrite app_nil_r. apply Permutation_rev.
  - intros TP. assert (O : hord cmp h /\ hwf (mkHeap h M)).
    { destruct (heap_run_bag cmp TP (map (fun e : nat * A => HInsert (snd e)) order) heap_make hwf_make (hord_make cmp)) as (h1 & rs & R1 & _).
      rewrite (i_run _ _ _ _ _ I) in R1. injection R1 as <- _. split; [|exact (run_wf cmp _ _ _ _ (i_run _ _ _ _ _ I))].
      assert (G : forall (o : list (nat * A)) h0 hh rs0, hwf h0 -> hord cmp (h_tree h0) -> heap_run cmp h0 (map (fun e => HInsert (snd e)) o) = HOk (hh, rs0) -> hord cmp (h_tree hh)).
      { induction o as [|e o IH]; intros h0 hh rs0 W0 O0 X; cbn [map heap_run heap_step] in X; [injection X as <- _; exact O0|].
        destruct (heap_insert_perm cmp h0 (snd e) W0) as (h2 & X2 & W2 & _). rewrite X2 in X.
        destruct (heap_run cmp h2 _) as [(h3 & rs3)| |] eqn:X3; try discriminate. injection X as <- _. eapply IH; eauto. eapply heap_insert_ord; eauto. }
      exact (G order heap_make (mkHeap h M) _ hwf_make (hord_make cmp) (i_run _ _ _ _ _ I)). }
    destruct O as (O & W). rewrite S2. destruct (heap_run_bag cmp TP (repeat HExtract (length h) ++ [HExtract]) (mkHeap h M) W O) as (h' & rs & R2 & B).
    cbn [h_tree] in B. apply bag_trace_app_inv in B as (r3 & r4 & s2 & -> & B2 & B3).
    apply bag_trace_extracts in B2; [|reflexivity]. destruct B2 as (-> & ys & -> & P2 & SS).
    apply bag_trace_cons_inv in B3 as (r & s3 & rs' & -> & B3 & B4). apply bag_trace_nil_inv in B4 as (-> & B4).
    assert (r = None) as -> by (destruct r; [|reflexivity]; cbn in B3; destruct B3 as (B3 & _); now apply Permutation_nil_cons in B3).
    exists h', ys. split; [exact R2|]. split; [now rewrite <- P2|exact SS].
Qed.

(** ** C122 *)

(** While memory lasts some thread can always go on, and after a bounded number of steps all
    calls have returned.  Missing: an allocation that fails. *)
Theorem inserts_end_partial : forall (A : Type) (cmp : A -> A -> Z) calls l s, all_safe calls -> memory_lasts l ->
  play cmp (start calls) l = Next s ->
  (finished s \/ exists t s', step cmp s t true = Next s') /\ length l <= (4 * length (concat calls) + 13) * length (concat calls).
Proof.
  intros A cmp calls l s SF ML E. pose proof (start_sound cmp calls SF) as S0. pose proof (play_sound cmp calls l (start calls) ML S0) as S. rewrite E in S. split.
  - destruct S as ((order & h & M & I) & _).
    assert (D : finished s \/ ~ finished s).
    { unfold finished. clear. induction (threads s) as [|y k IH]; [left; constructor|].
      assert (Y : (t_todo y = [] /\ t_pos y = Between) \/ ~ (t_todo y = [] /\ t_pos y = Between)).
      { destruct (t_todo y); [|right; intros (X & _); discriminate]. destruct (t_pos y); try (right; intros (_ & X); discriminate). now left. }
      destruct Y as [Y|Y]; [|right; intros F; apply Forall_cons_iff in F; tauto].
      destruct IH as [IH|IH]; [left; now constructor|right; intros F; apply Forall_cons_iff in F; tauto]. }
    destruct D as [D|D]; [now left|right]. eapply progress; eauto.
  - pose proof (play_weight cmp calls l (start calls) s ML S0 E) as W. set (T := length (concat calls)) in *.
    assert (T0 : total T (start calls) = (4 * T + 13) * T).
    { unfold total. cbn [start threads]. rewrite map_map. rewrite (map_ext _ (fun c : list (bool * A) => (4 * T + 13) * length c)) by (intros c; unfold tweight; cbn; lia).
      generalize (4 * T + 13) as K. intros K. unfold T. clear. induction calls as [|c r IH]; [cbn; lia|]. cbn [map concat]. rewrite app_length.
      unfold list_sum in *. cbn [fold_right]. rewrite IH. lia. }
    lia.
Qed.

(** A thread inserts 257 elements; the array must grow and there is no memory.  The call
    returns -1 with the lock taken and the array dropped: another thread's insertion never
    returns, and everything inserted is lost. *)
Definition no_order (_ _ : unit) : Z := 0.
Definition full_calls : list (list (bool * unit)) := [repeat (true, tt) 257; [(true, tt)]].
Definition full_run : list (nat * bool) := repeat (0, true) 2307 ++ [(0, false); (0, true)].
Definition stuck (s : st unit) : bool :=
  match lock s, threads s with
  | Some 0, [a; b] => lost s && match t_todo a, t_pos a, t_done b with [], Between, [] =>
      match t_pos b with Between | Lock _ => forallb fst (t_todo b) | _ => false end | _, _, _ => false end
  | _, _ => false
  end.
Lemma stuck_step s t mem s' : stuck s = true -> step no_order s t mem = Next s' -> stuck s' = true.
Proof.
  intros S E. unfold stuck in S. destruct (lock s) as [[|o]|] eqn:L; try discriminate. destruct (threads s) as [|a [|b [|c r]]] eqn:T; try discriminate.
  destruct (lost s) eqn:LO; cbn [andb] in S; [|discriminate]. destruct (t_todo a) eqn:Ta; [|discriminate]. destruct (t_pos a) eqn:Pa; try discriminate. destruct (t_done b) eqn:Db; [|discriminate].
  unfold step in E. rewrite T in E. destruct t as [|[|t]]; cbn [nth_error] in E.
  - cbv zeta in E. rewrite Pa, Ta in E. discriminate.
  - cbv zeta in E. destruct (t_pos b) eqn:Pb; try discriminate.
    + destruct (t_todo b) as [|(f & x) r] eqn:Tb; [discriminate|]. cbn [forallb fst] in S. apply andb_true_iff in S. destruct S as (-> & S). injection E as <-.
      unfold stuck. cbn [lock threads lost upd]. rewrite L, LO, Ta, Pa, Db. cbn [t_done t_pos t_todo andb]. exact S.
    + rewrite L in E. discriminate.
  - destruct t; discriminate E.
Qed.
Lemma next_of {A} (o : outcome A) (f : st A -> bool) : match o with Next s => f s | _ => false end = true -> exists s, o = Next s /\ f s = true.
Proof. destruct o as [s| |]; try discriminate. eauto. Qed.
Theorem inserts_end_refuted : exists (calls : list (list (bool * unit))) l s, all_safe calls /\ play no_order (start calls) l = Next s /\
  (exists th, nth_error (threads s) 0 = Some th /\ length (t_done th) = 256 /\ t_pos th = Between) /\
  forall l' s', play no_order s l' = Next s' -> lost s' = true /\ exists th, nth_error (threads s') 1 = Some th /\ t_done th = [].
Proof.
  destruct (next_of (play no_order (start full_calls) full_run) (fun s => stuck s && match threads s with a :: _ => (length (t_done a) =? 256) | [] => false end)) as (s & E & C); [vm_compute; reflexivity|].
  apply andb_true_iff in C. destruct C as (S & D). exists full_calls, full_run, s.
  split; [constructor; [apply Forall_forall; intros e I; apply repeat_spec in I; now subst|constructor; [repeat constructor|constructor]]|]. split; [exact E|]. clear E. split.
  - unfold stuck in S. destruct (lock s) as [[|k]|]; try discriminate. destruct (threads s) as [|a [|b [|c r]]]; try discriminate. destruct (lost s); [|discriminate].
    cbn [andb] in S. destruct (t_todo a); [|discriminate]. destruct (t_pos a) eqn:Pa; try discriminate. exists a. split; [reflexivity|]. split; [now apply Nat.eqb_eq|exact Pa].
  - clear D. intros l' s' P. assert (S' : stuck s' = true).
    { revert s S P. induction l' as [|(t & mem) l' IH]; intros s S P; cbn [play] in P; [now injection P as <-|].
      destruct (step no_order s t mem) as [s1| |] eqn:ST; try discriminate. apply (IH s1); [eapply stuck_step; eauto|exact P]. }
    unfold stuck in S'. destruct (lock s') as [[|k]|]; try discriminate. destruct (threads s') as [|a [|b [|c r]]]; try discriminate. destruct (lost s'); [|discriminate].
    split; [reflexivity|]. cbn [andb] in S'. destruct (t_todo a); [|discriminate]. destruct (t_pos a); try discriminate. exists b. split; [reflexivity|]. destruct (t_done b); [reflexivity|discriminate].
Qed.

(** ** C123 *)

(** Below 2^31 the loop ends with the next power of two, without overflow. *)
Theorem heap_growth_partial : forall max, (0 < max < 2 ^ 31)%N -> exists fuel, grow_loop fuel 1 max = Some (grow max) /\ (max < grow max < 2 ^ 32)%N.
Proof.
  intros max (P & B). set (k := N.log2 max). assert (K : (2 ^ k <= max < 2 ^ (k + 1))%N) by (unfold k; rewrite N.add_1_r; now apply N.log2_spec).
  assert (K31 : (k < 31)%N). { apply (N.pow_lt_mono_r_iff 2); [lia|]. eapply N.le_lt_trans; [apply K|exact B]. }
  assert (G : grow max = (2 ^ (k + 1))%N) by (unfold grow; destruct (N.eqb_spec max 0); [lia|reflexivity]).
  assert (U : (2 ^ (k + 1) < 2 ^ 32)%N) by (apply N.pow_lt_mono_r; lia).
  exists (N.to_nat (k + 2)). rewrite G. split; [|lia].
  assert (R : forall n j, (N.of_nat n + j = k + 1)%N -> grow_loop (S n) (2 ^ j) max = Some (2 ^ (k + 1))%N).
  { induction n as [|n IH]; intros j E; cbn [grow_loop].
    - replace j with (k + 1)%N by lia. destruct (N.leb_spec (2 ^ (k + 1)) max); [lia|reflexivity].
    - assert (J : (2 ^ j <= 2 ^ k)%N) by (apply N.pow_le_mono_r; lia). destruct (N.leb_spec (2 ^ j) max); [|lia].
      assert (X : (2 ^ j * 2 = 2 ^ (j + 1))%N) by (rewrite N.pow_add_r; reflexivity). rewrite X.
      assert (Y : (2 ^ (j + 1) <= 2 ^ (k + 1))%N) by (apply N.pow_le_mono_r; lia). rewrite N.mod_small by lia. apply IH. lia. }
  specialize (R (N.to_nat (k + 1)) 0%N). rewrite N.pow_0_r in R. replace (N.to_nat (k + 2)) with (S (N.to_nat (k + 1))) by lia. apply R. lia.
Qed.

Lemma grow_loop_hangs : forall fuel m max, (2 ^ 31 <= max < 2 ^ 32)%N -> (m = 0 \/ exists j, m = 2 ^ j /\ j <= 31)%N -> grow_loop fuel m max = None.
Proof.
  induction fuel as [|f IH]; intros m max B M; [reflexivity|]. cbn [grow_loop].
  assert (L : (m <= 2 ^ 31)%N). { destruct M as [->|(j & -> & J)]; [lia|]. now apply N.pow_le_mono_r. }
  destruct (N.leb_spec m max); [|lia]. apply IH; [exact B|]. destruct M as [->|(j & -> & J)]; [left; reflexivity|].
  replace (2 ^ j * 2)%N with (2 ^ (j + 1))%N by (rewrite N.pow_add_r; reflexivity). destruct (N.eq_dec j 31) as [->|NE]; [left; reflexivity|].
  right. exists (j + 1)%N. split; [|lia]. apply N.mod_small. apply N.pow_lt_mono_r; lia.
Qed.
Lemma inserts_max {A} (cmp : A -> A -> Z) : forall xs h h' rs, hwf h -> (exists k, h_max h = 2 ^ k /\ (8 <= k)%N /\ (k = 8%N \/ 2 ^ (k - 1) < N.of_nat (length (h_tree h))))%N ->
  heap_run cmp h (map HInsert xs) = HOk (h', rs) ->
  length (h_tree h') = length (h_tree h) + length xs /\ hwf h' /\ (exists k, h_max h' = 2 ^ k /\ (8 <= k)%N /\ (k = 8%N \/ 2 ^ (k - 1) < N.of_nat (length (h_tree h'))))%N.
Proof.
  induction xs as [|x xs IH]; intros h h' rs W K E; cbn [map heap_run heap_step] in E; [injection E as <- <-; split; [cbn; lia|auto]|].
  destruct (heap_insert_perm cmp h x W) as (h1 & E1 & W1 & P1). rewrite E1 in E. destruct (heap_run cmp h1 (map HInsert xs)) as [(h2 & rs2)| |] eqn:E2; try discriminate.
  injection E as <- _. apply Permutation_length in P1. cbn [length] in P1.
  assert (M : h_max h1 = (if h_max h <=? N.of_nat (length (h_tree h)) then grow (h_max h) else h_max h)%N).
  { unfold heap_insert in E1. set (m := if (_ <=? _)%N then _ else _) in *. destruct (_ <? _)%N; [|discriminate]. destruct (sift_up _ _ _ _); try discriminate. now injection E1 as <-. }
  destruct (IH h1 h2 rs2 W1) as (L2 & W2 & K2); [|exact E2|split; [cbn [length]; lia|auto]].
  destruct K as (k & Hk & K8 & KL). rewrite M, Hk. destruct (N.leb_spec (2 ^ k) (N.of_nat (length (h_tree h)))) as [C|C].
  - exists (k + 1)%N. split; [|split; [lia|right]].
    + unfold grow. assert (0 < 2 ^ k)%N by (apply N.neq_0_lt_0, N.pow_nonzero; lia). destruct (N.eqb_spec (2 ^ k) 0); [lia|]. now rewrite N.log2_pow2 by lia.
    + rewrite N.add_sub. lia.
  - exists k. split; [reflexivity|]. split; [exact K8|]. destruct KL as [->|KL]; [now left|right]. lia.
Qed.
(** After 2^31 insertions the array has 2^31 cells and is full: the loop of the next insertion
    never ends. *)
Theorem heap_growth_refuted : forall A (cmp : A -> A -> Z) xs h rs, N.of_nat (length xs) = (2 ^ 31)%N ->
  heap_run cmp heap_make (map HInsert xs) = HOk (h, rs) ->
  h_max h = (2 ^ 31)%N /\ N.of_nat (heap_size h) = (2 ^ 31)%N /\ forall fuel, grow_loop fuel 1 (h_max h) = None.
Proof.
  intros A cmp xs h rs L E. destruct (inserts_max cmp xs heap_make h rs hwf_make) as (LH & W & k & Hk & K8 & KL); [|exact E|].
  { exists 8%N. split; [reflexivity|]. split; [lia|now left]. }
  cbn [heap_make h_tree length] in LH. assert (LN : N.of_nat (length (h_tree h)) = (2 ^ 31)%N) by (rewrite LH; exact L).
  assert (M : h_max h = (2 ^ 31)%N).
  { unfold hwf in W. rewrite LN, Hk in W. rewrite Hk. f_equal. apply N.pow_le_mono_r_iff in W; [|lia]. destruct KL as [->|KL]; [lia|].
    rewrite LN in KL. apply N.pow_lt_mono_r_iff in KL; lia. }
  split; [exact M|]. split; [exact LN|]. intros fuel. apply grow_loop_hangs; [rewrite M; split; reflexivity || (vm_compute; intuition discriminate)|].
  right. exists 0%N. split; [reflexivity|lia].
Qed.
(** both cases occur *)
Example growth_ex : grow_loop 40 1 256 = Some 512%N /\ (0 < 256 < 2 ^ 31)%N.
Proof. split; [reflexivity|]. lia. Qed.
Example growth_run_ex : exists xs : list unit, N.of_nat (length xs) = (2 ^ 31)%N /\ exists h rs, heap_run no_order heap_make (map HInsert xs) = HOk (h, rs).
Proof.
  exists (repeat tt (N.to_nat (2 ^ 31))). split; [rewrite repeat_length; apply N2Nat.id|].
  destruct (heap_run_conserve_gen no_order (map HInsert (repeat tt (N.to_nat (2 ^ 31)))) heap_make hwf_make) as (h & rs & E & _). eauto.
Qed.

(** * The hypotheses hold, and the lock is what makes the difference *)
Definition two_calls (safe : bool) : list (list (bool * Z)) := [[(safe, 1%Z)]; [(safe, 2%Z)]].
Example two_safe : all_safe (two_calls true).
Proof. repeat constructor. Qed.
Definition turns (n : nat) : list (nat * bool) := concat (repeat [(0, true); (1, true)] n).
(** both threads start, the second waits for the lock, and both elements are there in the end *)
Definition two_run : list (nat * bool) := [(0, true); (1, true)] ++ repeat (0, true) 8 ++ repeat (1, true) 12.
Example safe_run : match play Z.sub (start (two_calls true)) two_run with
  | Next s => contents s = [Some 2; Some 1]%Z /\ lock s = None /\ map t_done (threads s) = [[1]; [2]]%Z | _ => False end.
Proof. vm_compute. auto. Qed.
Example safe_finished : exists s, play Z.sub (start (two_calls true)) two_run = Next s /\ memory_lasts two_run /\ finished s.
Proof.
  destruct (next_of (play Z.sub (start (two_calls true)) two_run) (fun s => forallb (fun th => match t_todo th, t_pos th with [], Between => true | _, _ => false end) (threads s))) as (s & E & C); [vm_compute; reflexivity|].
  exists s. split; [exact E|]. clear E. split; [repeat constructor|]. rewrite forallb_forall in C. apply Forall_forall. intros th I. specialize (C th I).
  destruct (t_todo th); [|discriminate]. destruct (t_pos th); try discriminate. auto.
Qed.
(** napr_heap_insert without the lock: taking turns, one of the two elements is lost *)
Example plain_run : match play Z.sub (start (two_calls false)) (turns 7) with
  | Next s => contents s = [Some 2]%Z /\ map t_done (threads s) = [[1]; [2]]%Z | _ => False end.
Proof. vm_compute. auto. Qed.

Print Assumptions concurrent_inserts.
Print Assumptions all_inserted.
Print Assumptions inserts_end_partial.
Print Assumptions inserts_end_refuted.
Print Assumptions heap_growth_partial.
Print Assumptions heap_growth_refuted.
