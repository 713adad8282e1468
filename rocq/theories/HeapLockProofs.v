(** Proofs about threads that insert into one heap. *)
From Verif Require Import Util HeapModel HeapSpec HeapProofs HeapLockModel HeapLockSpec.
Local Open Scope nat_scope.

Section Proofs.
Context {A : Type}.
Variable cmp : A -> A -> Z.

Notation run order := (heap_run cmp heap_make (map (fun e : nat * A => HInsert (snd e)) order)).

Lemma run_snoc : forall (order : list (nat * A)) h0 h x h', heap_run cmp h0 (map (fun e => HInsert (snd e)) order) = HOk (h, map (fun _ => None) order) ->
  heap_insert cmp h (snd x) = HOk h' ->
  heap_run cmp h0 (map (fun e => HInsert (snd e)) (order ++ [x])) = HOk (h', map (fun _ => None) (order ++ [x])).
Proof.
  induction order as [|e order IH]; intros h0 h x h' R I.
  - cbn in R. injection R as <-. cbn [app map heap_run heap_step]. rewrite I. reflexivity.
  - cbn [app map heap_run heap_step] in *. destruct (heap_insert cmp h0 (snd e)) as [h1| |]; try discriminate.
    destruct (heap_run cmp h1 (map (fun e => HInsert (snd e)) order)) as [(h2 & rs)| |] eqn:R1; try discriminate. injection R as -> ->.
    rewrite (IH h1 h x h' R1 I). reflexivity.
Qed.
Lemma run_wf order l M rs : run order = HOk (mkHeap l M, rs) -> (N.of_nat (length l) <= M)%N.
Proof.
  intros R. destruct (heap_run_conserve_gen cmp (map (fun e : nat * A => HInsert (snd e)) order) heap_make hwf_make) as (h & rs' & E & W & _).
  rewrite E in R. injection R as -> _. exact W.
Qed.

Definition rep (c : nat -> option A) (l : list A) : Prop := forall i, i < length l -> c i = nth_error l i.
Definition newmax (l : list A) (M : N) : N := if (M <=? N.of_nat (length l))%N then grow M else M.
Lemma newmax_gt l M : (N.of_nat (length l) <= M)%N -> (N.of_nat (length l) < newmax l M)%N.
Proof. intros H. unfold newmax. destruct (N.leb_spec M (N.of_nat (length l))); [|lia]. pose proof (grow_gt M). lia. Qed.

(** the sifting still to be done leads to what the call gives on its own *)
Definition sifting (l : list A) (M : N) (x : A) (cur : list A) (i : nat) : Prop :=
  i <= length l /\ length cur = S (length l) /\
  exists f lf, sift_up cmp f cur i = HOk lf /\ heap_insert cmp (mkHeap l M) x = HOk (mkHeap lf (newmax l M)).
Definition ready (s : st A) (l : list A) (M : N) : Prop := count s = length l /\ size s = M /\ maxi s = M /\ rep (cells s) l.
Definition mid (s : st A) (p : pos A) (l : list A) (M : N) : Prop :=
  count s = length l /\
  match p with
  | Between | Lock _ | NoMemory _ => False
  | Check _ _ | Unlock _ => ready s l M
  | Alloc _ _ => ready s l M /\ (M <= N.of_nat (length l))%N
  | Copy _ _ m => ready s l M /\ (M <= N.of_nat (length l))%N /\ m = grow M
  | SetTree _ _ m f => ready s l M /\ (M <= N.of_nat (length l))%N /\ m = grow M /\ rep f l
  | SetMax _ _ m => size s = m /\ maxi s = M /\ rep (cells s) l /\ (M <= N.of_nat (length l))%N /\ m = grow M
  | Store _ _ => size s = newmax l M /\ maxi s = newmax l M /\ rep (cells s) l
  | GetPos _ x => size s = newmax l M /\ maxi s = newmax l M /\ rep (cells s) (l ++ [x])
  | Loop _ x i => size s = newmax l M /\ maxi s = newmax l M /\ exists cur, rep (cells s) cur /\ sifting l M x cur i
  | Swap1 _ x i => size s = newmax l M /\ maxi s = newmax l M /\ exists cur v w, rep (cells s) cur /\ sifting l M x cur i /\ 0 < i /\
      nth_error cur (hparent i) = Some v /\ nth_error cur i = Some w /\ (cmp v w <? 0)%Z = true
  | Swap2 _ x i tmp => size s = newmax l M /\ maxi s = newmax l M /\ exists cur w, rep (cells s) cur /\ sifting l M x cur i /\ 0 < i /\
      nth_error cur (hparent i) = Some tmp /\ nth_error cur i = Some w /\ (cmp tmp w <? 0)%Z = true
  | Swap3 _ x i tmp => size s = newmax l M /\ maxi s = newmax l M /\ exists cur w, rep (cells s) (upd cur (hparent i) w) /\ sifting l M x cur i /\ 0 < i /\
      nth_error cur (hparent i) = Some tmp /\ nth_error cur i = Some w /\ (cmp tmp w <? 0)%Z = true
  | GetCount _ x => size s = newmax l M /\ maxi s = newmax l M /\ exists lf, rep (cells s) lf /\ heap_insert cmp (mkHeap l M) x = HOk (mkHeap lf (newmax l M))
  | SetCount _ x c => c = length l /\ size s = newmax l M /\ maxi s = newmax l M /\ exists lf, rep (cells s) lf /\ heap_insert cmp (mkHeap l M) x = HOk (mkHeap lf (newmax l M))
  end.
Definition inside (p : pos A) : Prop := match p with Between | Lock _ => False | _ => True end.
Definition locked_call (p : pos A) : Prop :=
  match p with
  | Between | Lock _ | Unlock _ => True
  | NoMemory _ => False
  | Check b _ | Alloc b _ | Copy b _ _ | SetTree b _ _ _ | SetMax b _ _ | Store b _ | GetPos b _ | Loop b _ _ | Swap1 b _ _ | Swap2 b _ _ _
  | Swap3 b _ _ _ | GetCount b _ | SetCount b _ _ => b = true
  end.
(** the data of a thread that are in the heap *)
Definition landed (th : thread A) : list A := match t_pos th with Unlock x => x :: t_done th | _ => t_done th end.

Record inv (s : st A) (order : list (nat * A)) (l : list A) (M : N) : Prop := {
  i_run : run order = HOk (mkHeap l M, map (fun _ => None) order);
  i_lost : lost s = false;
  i_safe : forall t th, nth_error (threads s) t = Some th -> Forall (fun e => fst e = true) (t_todo th) /\ locked_call (t_pos th);
  i_excl : forall t th, nth_error (threads s) t = Some th -> (inside (t_pos th) <-> lock s = Some t);
  i_lock : forall t, lock s = Some t -> t < length (threads s);
  i_done : forall t th, nth_error (threads s) t = Some th -> by_thread t order = landed th;
  i_none : forall t, length (threads s) <= t -> by_thread t order = [];
  i_free : lock s = None -> ready s l M;
  i_mid : forall t th, lock s = Some t -> nth_error (threads s) t = Some th -> mid s (t_pos th) l M }.

Lemma by_thread_snoc t (order : list (nat * A)) u x : by_thread t (order ++ [(u, x)]) = if Nat.eqb u t then x :: by_thread t order else by_thread t order.
Proof. unfold by_thread. rewrite filter_app. cbn [filter fst]. destruct (Nat.eqb u t); rewrite map_app, rev_app_distr; reflexivity. Qed.

Lemma inv_start calls : all_safe calls -> inv (start calls) [] [] 256.
Proof.
  intros SF. constructor; try reflexivity.
  - intros t th E. apply nth_error_In in E. cbn [start threads] in E. apply in_map_iff in E as (c & <- & I). cbn.
    split; [|exact Logic.I]. unfold all_safe in SF. rewrite Forall_forall in SF. now apply SF.
  - intros t th E. apply nth_error_In in E. cbn [start threads] in E. apply in_map_iff in E as (c & <- & I). cbn. split; [intros []|discriminate].
  - discriminate.
  - intros t th E. apply nth_error_In in E. cbn [start threads] in E. apply in_map_iff in E as (c & <- & I). reflexivity.
  - intros _. unfold ready. cbn. split; [reflexivity|]. split; [reflexivity|]. split; [reflexivity|]. intros i Hi. cbn in Hi. lia.
  - discriminate.
Qed.

(** a step of the owner of the lock that keeps the lock *)
Lemma inv_owner s s' order l M t th p :
  inv s order l M -> lock s = Some t -> nth_error (threads s) t = Some th -> inside p -> locked_call p -> landed (mkThread (t_todo th) p (t_done th)) = landed th ->
  threads s' = upd (threads s) t (mkThread (t_todo th) p (t_done th)) -> lock s' = Some t -> lost s' = false ->
  mid s' p l M -> inv s' order l M.
Proof.
  intros I L N IN LC LD T' L' X' MD. assert (LT : t < length (threads s)) by (eapply nth_error_Some_lt; eauto). constructor.
  - apply (i_run _ _ _ _ I).
  - exact X'.
  - intros u th' E. rewrite T' in E. destruct (Nat.eq_dec t u) as [<-|NE].
    + rewrite nth_error_upd_eq in E by lia. injection E as <-. cbn. split; [|exact LC]. apply (i_safe _ _ _ _ I _ _ N).
    + rewrite nth_error_upd_neq in E by lia. apply (i_safe _ _ _ _ I _ _ E).
  - intros u th' E. rewrite T' in E. rewrite L'. destruct (Nat.eq_dec t u) as [<-|NE].
    + rewrite nth_error_upd_eq in E by lia. injection E as <-. cbn. tauto.
    + rewrite nth_error_upd_neq in E by lia. rewrite (i_excl _ _ _ _ I _ _ E). rewrite L. tauto.
  - intros u E. rewrite T', length_upd. rewrite L' in E. injection E as <-. exact LT.
  - intros u th' E. rewrite T' in E. destruct (Nat.eq_dec t u) as [<-|NE].
    + rewrite nth_error_upd_eq in E by lia. injection E as <-. rewrite LD. apply (i_done _ _ _ _ I _ _ N).
    + rewrite nth_error_upd_neq in E by lia. apply (i_done _ _ _ _ I _ _ E).
  - intros u E. rewrite T', length_upd in E. now apply (i_none _ _ _ _ I).
  - rewrite L'. discriminate.
  - intros u th' E N'. rewrite L' in E. injection E as <-. rewrite T', nth_error_upd_eq in N' by lia. injection N' as <-. exact MD.
Qed.

Lemma hparent_below i : 0 < i -> hparent i < i.
Proof. apply hparent_lt. Qed.

Lemma rep_set c l i v : rep c l -> i < length l -> rep (setc c i (Some v)) (upd l i v).
Proof.
  intros R H j Hj. rewrite length_upd in Hj. unfold setc. destruct (Nat.eqb_spec i j) as [<-|NE].
  - symmetry. now apply nth_error_upd_eq.
  - rewrite nth_error_upd_neq by lia. now apply R.
Qed.

Lemma step_inv s t order l M : inv s order l M ->
  match step cmp s t true with
  | Next s' => exists order' l' M', inv s' order' l' M'
  | Blocked => True
  | Bad => False
  end.
Proof.
  intros I. unfold step. destruct (nth_error (threads s) t) as [th|] eqn:N; [|exact Logic.I].
  assert (LT : t < length (threads s)) by (eapply nth_error_Some_lt; eauto).
  destruct (i_safe _ _ _ _ I _ _ N) as (SF & LC). pose proof (i_excl _ _ _ _ I _ _ N) as EX. pose proof (i_lost _ _ _ _ I) as NL.
  pose proof (run_wf _ _ _ _ (i_run _ _ _ _ I)) as WF.
  cbv zeta. destruct (t_pos th) as [|x|b x|b x|b x m|b x m f|b x m|b x|b x|b x i|b x i|b x i tmp|b x i tmp|b x|b x c|x|x] eqn:P; cbn [locked_call inside] in *;
    try (assert (L : lock s = Some t) by (apply EX; exact Logic.I)); try (pose proof (i_mid _ _ _ _ I t th L N) as MD; rewrite P in MD; cbn [mid] in MD; destruct MD as (CT & MD)); try subst b.
  - (* Between *)
    destruct (t_todo th) as [|(safe & x) r] eqn:TD; [exact Logic.I|]. apply Forall_cons_iff in SF. destruct SF as (SX & SF). cbn [fst] in SX. subst safe.
    exists order, l, M. constructor; cbn [threads lock lost maxi]; try apply I; auto.
    + intros u th' E. destruct (Nat.eq_dec t u) as [<-|NE].
      * rewrite nth_error_upd_eq in E by lia. injection E as <-. cbn. auto.
      * rewrite nth_error_upd_neq in E by lia. apply (i_safe _ _ _ _ I _ _ E).
    + intros u th' E. destruct (Nat.eq_dec t u) as [<-|NE].
      * rewrite nth_error_upd_eq in E by lia. injection E as <-. cbn. exact EX.
      * rewrite nth_error_upd_neq in E by lia. apply (i_excl _ _ _ _ I _ _ E).
    + intros u E. rewrite length_upd. now apply (i_lock _ _ _ _ I).
    + intros u th' E. destruct (Nat.eq_dec t u) as [<-|NE].
      * rewrite nth_error_upd_eq in E by lia. injection E as <-. cbn. rewrite (i_done _ _ _ _ I _ _ N). unfold landed. now rewrite P.
      * rewrite nth_error_upd_neq in E by lia. apply (i_done _ _ _ _ I _ _ E).
    + intros u E. rewrite length_upd in E. now apply (i_none _ _ _ _ I).
    + intros u th' E N'. destruct (Nat.eq_dec t u) as [<-|NE].
      * apply EX in E. destruct E.
      * rewrite nth_error_upd_neq in N' by lia. apply (i_mid _ _ _ _ I _ _ E N').
  - (* Lock *)
    destruct (lock s) as [o|] eqn:L; [exact Logic.I|]. exists order, l, M. constructor; cbn [threads lock lost maxi goto]; try apply I; auto.
    + intros u th' E. destruct (Nat.eq_dec t u) as [<-|NE].
      * rewrite nth_error_upd_eq in E by lia. injection E as <-. cbn. auto.
      * rewrite nth_error_upd_neq in E by lia. apply (i_safe _ _ _ _ I _ _ E).
    + intros u th' E. destruct (Nat.eq_dec t u) as [<-|NE].
      * rewrite nth_error_upd_eq in E by lia. injection E as <-. cbn. tauto.
      * rewrite nth_error_upd_neq in E by lia. rewrite (i_excl _ _ _ _ I _ _ E), L. split; [discriminate|congruence].
    + intros u E. rewrite length_upd. injection E as <-. exact LT.
    + intros u th' E. destruct (Nat.eq_dec t u) as [<-|NE].
      * rewrite nth_error_upd_eq in E by lia. injection E as <-. cbn. rewrite (i_done _ _ _ _ I _ _ N). unfold landed. now rewrite P.
      * rewrite nth_error_upd_neq in E by lia. apply (i_done _ _ _ _ I _ _ E).
    + intros u E. rewrite length_upd in E. now apply (i_none _ _ _ _ I).
    + discriminate.
    + intros u th' E N'. injection E as <-. rewrite nth_error_upd_eq in N' by lia. injection N' as <-. cbn.
      pose proof (i_free _ _ _ _ I L) as R. split; [apply R|exact R].
  - (* Check *)
    exists order, l, M. set (p := if (maxi s <=? N.of_nat (count s))%N then Alloc true x else Store true x).
    apply (inv_owner s (goto s t th p) order l M t th p); auto; try (unfold p; destruct (_ <=? _)%N; exact Logic.I).
    + unfold p; destruct (_ <=? _)%N; reflexivity.
    + unfold landed. cbn [t_pos t_done]. rewrite P. unfold p. destruct (_ <=? _)%N; reflexivity.
    + destruct MD as (_ & S1 & S2 & R). unfold p. rewrite S2, CT. destruct (N.leb_spec M (N.of_nat (length l))) as [G|G]; cbn [mid goto count size maxi cells].
      * split; [exact CT|]. split; [split; auto|exact G].
      * split; [exact CT|]. assert (Y : newmax l M = M) by (unfold newmax; destruct (N.leb_spec M (N.of_nat (length l))); [lia|reflexivity]). rewrite Y. auto.
  - (* Alloc *)
    exists order, l, M. destruct MD as (R & G). apply (inv_owner s _ order l M t th (Copy true x (grow (maxi s)))); auto; try exact Logic.I; try reflexivity.
    + unfold landed. cbn [t_pos t_done]. now rewrite P.
    + cbn [mid goto count size maxi cells]. split; [exact CT|]. destruct R as (R1 & R2 & R3 & R4). split; [split; auto|]. split; [exact G|]. now rewrite R3.
  - (* Copy *)
    rewrite NL. destruct MD as ((R1 & R2 & R3 & R4) & G & ->). assert (Y : newmax l M = grow M) by (unfold newmax; destruct (N.leb_spec M (N.of_nat (length l))); [reflexivity|lia]).
    pose proof (newmax_gt l M WF) as GT. rewrite Y in GT.
    assert (B : ((N.of_nat (count s) <=? size s)%N && (N.of_nat (count s) <? grow M)%N) = true).
    { rewrite CT. apply andb_true_iff. split; [apply N.leb_le; lia|apply N.ltb_lt; lia]. }
    rewrite B. exists order, l, M. apply (inv_owner s _ order l M t th (SetTree true x (grow M) (fun i => if i <? count s then cells s i else None))); auto; try exact Logic.I; try reflexivity.
    + unfold landed. cbn [t_pos t_done]. now rewrite P.
    + cbn [mid goto count size maxi cells]. split; [exact CT|]. split; [split; auto|]. split; [exact G|]. split; [reflexivity|].
      intros i Hi. destruct (Nat.ltb_spec i (count s)); [now apply R4|lia].
  - (* SetTree *)
    exists order, l, M. destruct MD as ((R1 & R2 & R3 & R4) & G & -> & RF). apply (inv_owner s _ order l M t th (SetMax true x (grow M))); auto; try exact Logic.I; try reflexivity.
    + unfold landed. cbn [t_pos t_done]. now rewrite P.
    + cbn [mid goto count size maxi cells]. split; [exact CT|]. auto.
  - (* SetMax *)
    exists order, l, M. destruct MD as (S1 & S2 & R & G & ->). assert (Y : newmax l M = grow M) by (unfold newmax; destruct (N.leb_spec M (N.of_nat (length l))); [reflexivity|lia]).
    apply (inv_owner s _ order l M t th (Store true x)); auto; try exact Logic.I; try reflexivity.
    + unfold landed. cbn [t_pos t_done]. now rewrite P.
    + cbn [mid goto count size maxi cells]. split; [exact CT|]. rewrite Y. auto.
  - (* Store *)
    rewrite NL. destruct MD as (S1 & S2 & R). pose proof (newmax_gt l M WF) as GT. rewrite S1, CT. destruct (N.ltb_spec (N.of_nat (length l)) (newmax l M)) as [_|X]; [|lia].
    exists order, l, M. apply (inv_owner s _ order l M t th (GetPos true x)); auto; try exact Logic.I; try reflexivity.
    + unfold landed. cbn [t_pos t_done]. now rewrite P.
    + cbn [mid goto count size maxi cells]. split; [auto|]. split; [auto|]. split; [auto|]. intros i Hi. rewrite app_length in Hi. cbn [length] in Hi.
      unfold rep in *. cbn [cells]. unfold setc. destruct (Nat.eqb_spec (length l) i) as [<-|NE].
      * rewrite nth_error_app2 by lia. rewrite Nat.sub_diag. reflexivity.
      * rewrite nth_error_app1 by lia. apply R. lia.
  - (* GetPos *)
    exists order, l, M. destruct MD as (S1 & S2 & R). apply (inv_owner s _ order l M t th (Loop true x (count s))); auto; try exact Logic.I; try reflexivity.
    + unfold landed. cbn [t_pos t_done]. now rewrite P.
    + cbn [mid goto count size maxi cells]. split; [exact CT|]. split; [exact S1|]. split; [exact S2|]. exists (l ++ [x]). split; [exact R|].
      split; [lia|]. split; [rewrite app_length; cbn; lia|]. rewrite CT.
      destruct (heap_insert_perm cmp (mkHeap l M) x WF) as (h' & E & _ & _). unfold heap_insert in E. cbn [h_tree h_max] in E. fold (newmax l M) in E.
      pose proof (newmax_gt l M WF) as GT. destruct (N.ltb_spec (N.of_nat (length l)) (newmax l M)) as [_|X]; [|lia].
      destruct (sift_up cmp (S (length l)) (l ++ [x]) (length l)) as [lf| |] eqn:SU; try discriminate.
      exists (S (length l)), lf. split; [exact SU|]. unfold heap_insert. cbn [h_tree h_max]. fold (newmax l M). rewrite SU.
      destruct (N.ltb_spec (N.of_nat (length l)) (newmax l M)) as [_|X]; [reflexivity|lia].
  - (* Loop *)
    destruct MD as (S1 & S2 & cur & R & (LE & LN & f & lf & SU & HI)). destruct f as [|f]; [discriminate SU|]. cbn [sift_up] in SU.
    destruct (Nat.eqb_spec i 0) as [->|NZ].
    + injection SU as <-. exists order, l, M. apply (inv_owner s _ order l M t th (GetCount true x)); auto; try exact Logic.I; try reflexivity.
      * unfold landed. cbn [t_pos t_done]. now rewrite P.
      * cbn [mid goto count size maxi cells]. split; [exact CT|]. eauto.
    + pose proof (hparent_below i ltac:(lia)) as HP. rewrite (R (hparent i)), (R i) by lia.
      destruct (nth_error cur (hparent i)) as [v|] eqn:Ev; [|discriminate SU]. destruct (nth_error cur i) as [w|] eqn:Ew; [|discriminate SU].
      exists order, l, M. set (p := if (cmp v w <? 0)%Z then Swap1 true x i else GetCount true x).
      apply (inv_owner s _ order l M t th p); auto; try reflexivity; try (unfold p; destruct (_ <? _)%Z; (exact Logic.I || reflexivity)).
      * unfold landed. cbn [t_pos t_done]. rewrite P. unfold p. destruct (_ <? _)%Z; reflexivity.
      * unfold p. destruct (cmp v w <? 0)%Z eqn:CW; cbn [mid goto count size maxi cells].
        -- split; [exact CT|]. split; [exact S1|]. split; [exact S2|]. exists cur, v, w. split; [exact R|]. split; [|auto with arith].
           ++ split; [exact LE|]. split; [exact LN|]. exists (S f), lf. split; [|exact HI]. cbn [sift_up]. destruct (Nat.eqb_spec i 0); [lia|]. rewrite Ev, Ew, CW. exact SU.
           ++ split; [lia|]. auto.
        -- injection SU as <-. split; [exact CT|]. eauto.
  - (* Swap1 *)
    destruct MD as (S1 & S2 & cur & v & w & R & SI & Pi & Ev & Ew & CW). pose proof (hparent_below i Pi) as HP.
    rewrite (R (hparent i)) by (destruct SI as (? & ? & _); lia). rewrite Ev.
    exists order, l, M. apply (inv_owner s _ order l M t th (Swap2 true x i v)); auto; try exact Logic.I; try reflexivity.
    + unfold landed. cbn [t_pos t_done]. now rewrite P.
    + cbn [mid goto count size maxi cells]. split; [exact CT|]. split; [exact S1|]. split; [exact S2|]. exists cur, w. auto 8.
  - (* Swap2 *)
    destruct MD as (S1 & S2 & cur & w & R & SI & Pi & Ev & Ew & CW). pose proof (hparent_below i Pi) as HP.
    exists order, l, M. apply (inv_owner s _ order l M t th (Swap3 true x i tmp)); auto; try exact Logic.I; try reflexivity.
    + unfold landed. cbn [t_pos t_done]. now rewrite P.
    + cbn [mid goto count size maxi cells]. split; [exact CT|]. split; [exact S1|]. split; [exact S2|]. exists cur, w. split; [|auto 8].
      rewrite (R i) by (destruct SI as (? & ? & _); lia). rewrite Ew. apply rep_set; [exact R|]. destruct SI as (? & ? & _); lia.
  - (* Swap3 *)
    destruct MD as (S1 & S2 & cur & w & R & SI & Pi & Ev & Ew & CW). pose proof (hparent_below i Pi) as HP.
    exists order, l, M. apply (inv_owner s _ order l M t th (Loop true x (hparent i))); auto; try exact Logic.I; try reflexivity.
    + unfold landed. cbn [t_pos t_done]. now rewrite P.
    + cbn [mid goto count size maxi cells]. split; [exact CT|]. split; [exact S1|]. split; [exact S2|]. destruct SI as (LE & LN & f & lf & SU & HI).
      exists (upd (upd cur (hparent i) w) i tmp). split; [apply rep_set; [exact R|rewrite length_upd; lia]|].
      split; [lia|]. split; [now rewrite !length_upd|]. destruct f as [|f]; [discriminate SU|]. cbn [sift_up] in SU. destruct (Nat.eqb_spec i 0); [lia|].
      rewrite Ev, Ew, CW in SU. rewrite (swap_some cur (hparent i) i tmp w Ev Ew) in SU. eauto.
  - (* GetCount *)
    destruct MD as (S1 & S2 & lf & R & HI). exists order, l, M. apply (inv_owner s _ order l M t th (SetCount true x (count s))); auto; try exact Logic.I; try reflexivity.
    + unfold landed. cbn [t_pos t_done]. now rewrite P.
    + cbn [mid goto count size maxi cells]. split; [exact CT|]. split; [exact CT|]. eauto.
  - (* SetCount *)
    destruct MD as (-> & S1 & S2 & lf & R & HI).
    assert (LF : length lf = S (length l)).
    { destruct (heap_insert_perm cmp (mkHeap l M) x WF) as (h' & E & _ & PM). rewrite HI in E. injection E as <-. apply Permutation_length in PM. cbn in PM. lia. }
    exists (order ++ [(t, x)]), lf, (newmax l M). constructor; cbn [threads lock lost maxi goto]; auto.
    + apply (run_snoc order heap_make (mkHeap l M) (t, x)); [apply I|exact HI].
    + intros u th' E. destruct (Nat.eq_dec t u) as [<-|NE].
      * rewrite nth_error_upd_eq in E by lia. injection E as <-. cbn. auto.
      * rewrite nth_error_upd_neq in E by lia. apply (i_safe _ _ _ _ I _ _ E).
    + intros u th' E. destruct (Nat.eq_dec t u) as [<-|NE].
      * rewrite nth_error_upd_eq in E by lia. injection E as <-. cbn. tauto.
      * rewrite nth_error_upd_neq in E by lia. apply (i_excl _ _ _ _ I _ _ E).
    + intros u E. rewrite length_upd. now apply (i_lock _ _ _ _ I).
    + intros u th' E. rewrite by_thread_snoc. destruct (Nat.eqb_spec t u) as [<-|NE].
      * rewrite nth_error_upd_eq in E by lia. injection E as <-. cbn. rewrite (i_done _ _ _ _ I _ _ N). unfold landed. now rewrite P.
      * rewrite nth_error_upd_neq in E by lia. apply (i_done _ _ _ _ I _ _ E).
    + intros u E. rewrite length_upd in E. rewrite by_thread_snoc. destruct (Nat.eqb_spec t u); [lia|]. now apply (i_none _ _ _ _ I).
    + rewrite L. discriminate.
    + intros u th' E N'. rewrite L in E. injection E as <-. rewrite nth_error_upd_eq in N' by lia. injection N' as <-. cbn.
      unfold mid, ready. cbn [count size maxi cells]. split; [lia|]. split; [lia|]. auto.
  - (* Unlock *)
    exists order, l, M. constructor; cbn [threads lock lost maxi]; try apply I; auto.
    + intros u th' E. destruct (Nat.eq_dec t u) as [<-|NE].
      * rewrite nth_error_upd_eq in E by lia. injection E as <-. cbn. auto.
      * rewrite nth_error_upd_neq in E by lia. apply (i_safe _ _ _ _ I _ _ E).
    + intros u th' E. destruct (Nat.eq_dec t u) as [<-|NE].
      * rewrite nth_error_upd_eq in E by lia. injection E as <-. cbn. split; [intros []|discriminate].
      * rewrite nth_error_upd_neq in E by lia. rewrite (i_excl _ _ _ _ I _ _ E), L. split; [congruence|discriminate].
    + discriminate.
    + intros u th' E. destruct (Nat.eq_dec t u) as [<-|NE].
      * rewrite nth_error_upd_eq in E by lia. injection E as <-. cbn. rewrite (i_done _ _ _ _ I _ _ N). unfold landed. now rewrite P.
      * rewrite nth_error_upd_neq in E by lia. apply (i_done _ _ _ _ I _ _ E).
    + intros u E. rewrite length_upd in E. now apply (i_none _ _ _ _ I).
    + discriminate.
  - destruct LC.
Qed.

(** ** What the threads were to insert *)
Definition datum (p : pos A) : list A :=
  match p with
  | Between | NoMemory _ => []
  | Lock x | Unlock x => [x]
  | Check _ x | Alloc _ x | Copy _ x _ | SetTree _ x _ _ | SetMax _ x _ | Store _ x | GetPos _ x | Loop _ x _ | Swap1 _ x _ | Swap2 _ x _ _
  | Swap3 _ x _ _ | GetCount _ x | SetCount _ x _ => [x]
  end.
Definition program (th : thread A) : list A := rev (t_done th) ++ datum (t_pos th) ++ map snd (t_todo th).
Lemma map_upd {B C} (f : B -> C) : forall (l : list B) t a b, nth_error l t = Some a -> f b = f a -> map f (upd l t b) = map f l.
Proof. induction l as [|y l IH]; intros [|t] a b E F; try discriminate; cbn in *; [congruence|]. f_equal. eauto. Qed.
Lemma step_program s t s' : step cmp s t true = Next s' -> (forall th, nth_error (threads s) t = Some th -> locked_call (t_pos th)) -> map program (threads s') = map program (threads s).
Proof.
  unfold step. destruct (nth_error (threads s) t) as [th|] eqn:N; [|discriminate]. intros E LC. specialize (LC th eq_refl). cbv zeta in E.
  assert (G : forall p, datum p = datum (t_pos th) -> map program (upd (threads s) t (mkThread (t_todo th) p (t_done th))) = map program (threads s)).
  { intros p D. apply (map_upd program _ _ th); [exact N|]. unfold program. cbn. now rewrite D. }
  assert (F : forall x, datum (t_pos th) = [x] -> map program (upd (threads s) t (mkThread (t_todo th) Between (x :: t_done th))) = map program (threads s)).
  { intros x D. apply (map_upd program _ _ th); [exact N|]. unfold program. cbn. rewrite D, <- app_assoc. reflexivity. }
  destruct (t_pos th) as [|x|b x|b x|b x m|b x m f|b x m|b x|b x|b x i|b x i|b x i tmp|b x i tmp|b x|b x c|x|x] eqn:P; cbn [locked_call] in LC; try subst b.
  - destruct (t_todo th) as [|(safe & x) r] eqn:TD; [discriminate|]. injection E as <-. cbn [threads]. apply (map_upd program _ _ th); [exact N|].
    unfold program. cbn. rewrite P, TD. destruct safe; reflexivity.
  - destruct (lock s); [discriminate|]. injection E as <-. now apply G.
  - injection E as <-. cbn. apply G. destruct (_ <=? _)%N; reflexivity.
  - injection E as <-. now apply G.
  - destruct (lost s); [discriminate|]. destruct (_ && _); [|discriminate]. injection E as <-. now apply G.
  - injection E as <-. now apply G.
  - injection E as <-. now apply G.
  - destruct (lost s); [discriminate|]. destruct (_ <? _)%N; [|discriminate]. injection E as <-. now apply G.
  - injection E as <-. now apply G.
  - destruct (i =? 0); [injection E as <-; now apply G|]. destruct (cells s (hparent i)), (cells s i); try discriminate. injection E as <-. apply G. destruct (_ <? _)%Z; reflexivity.
  - destruct (cells s (hparent i)); [|discriminate]. injection E as <-. now apply G.
  - injection E as <-. now apply G.
  - injection E as <-. now apply G.
  - injection E as <-. now apply G.
  - injection E as <-. now apply G.
  - injection E as <-. now apply F.
  - destruct LC.
Qed.

Definition sound (calls : list (list (bool * A))) (s : st A) : Prop :=
  (exists order l M, inv s order l M) /\ map program (threads s) = map (map snd) calls.
Lemma play_sound calls : forall l s, memory_lasts l -> sound calls s ->
  match play cmp s l with Next s' => sound calls s' | Blocked => True | Bad => False end.
Proof.
  induction l as [|(t & mem) l IH]; intros s ML S; [exact S|]. apply Forall_cons_iff in ML. destruct ML as (M1 & ML). cbn [snd] in M1. subst mem.
  cbn [play]. destruct S as ((order & h & M & I) & PR). pose proof (step_inv s t order h M I) as SI.
  destruct (step cmp s t true) as [s'| |] eqn:E; auto. apply (IH s' ML). split; [exact SI|].
  rewrite (step_program s t s' E); auto. intros th N. apply (i_safe _ _ _ _ I _ _ N).
Qed.
Lemma start_sound calls : all_safe calls -> sound calls (start calls).
Proof.
  intros SF. split; [exists [], [], 256%N; now apply inv_start|]. cbn [start threads]. rewrite map_map. apply map_ext. intros c. reflexivity.
Qed.

(** ** The order of the insertions and the data of the threads *)
Lemma by_thread_perm : forall n (order : list (nat * A)), (forall e, In e order -> fst e < n) ->
  Permutation (map snd order) (concat (map (fun t => by_thread t order) (seq 0 n))).
Proof.
  intros n order. induction order as [|e order IH] using rev_ind; intros H.
  - replace (concat _) with (@nil A); [constructor|]. symmetry. generalize (seq 0 n). induction l as [|a l IH]; [reflexivity|exact IH].
  - rewrite map_app. cbn [map]. rewrite <- Permutation_cons_append. rewrite IH by (intros x I; apply H, in_app_iff; now left). clear IH.
    assert (E : fst e < n) by (apply H, in_app_iff; right; now left). destruct e as (u & x). cbn [fst snd] in *. clear H.
    assert (F : forall l, ~ In u l -> map (fun t => by_thread t (order ++ [(u, x)])) l = map (fun t => by_thread t order) l).
    { intros l NI. apply map_ext_in. intros t I. rewrite by_thread_snoc. destruct (Nat.eqb_spec u t) as [->|]; [contradiction|reflexivity]. }
    assert (SQ : exists a b, seq 0 n = a ++ u :: b /\ ~ In u a /\ ~ In u b).
    { assert (I : In u (seq 0 n)) by (apply in_seq; lia). apply in_split in I. destruct I as (a & b & EQ). exists a, b. split; [exact EQ|].
      pose proof (seq_NoDup n 0) as ND. rewrite EQ in ND. apply NoDup_remove_2 in ND. rewrite in_app_iff in ND. tauto. }
    destruct SQ as (a & b & -> & Na & Nb). rewrite !map_app. cbn [map]. rewrite (F a Na), (F b Nb), by_thread_snoc, Nat.eqb_refl.
    rewrite !concat_app. cbn [concat]. apply Permutation_middle.
Qed.
Lemma inv_tids s order l M : inv s order l M -> forall e, In e order -> fst e < length (threads s).
Proof.
  intros I e IE. destruct (Nat.ltb_spec (fst e) (length (threads s))) as [H|H]; [exact H|].
  apply (i_none _ _ _ _ I) in H. unfold by_thread in H. assert (X : In (snd e) (rev (map snd (filter (fun x => Nat.eqb (fst x) (fst e)) order)))).
  { apply -> in_rev. apply in_map. apply filter_In. split; [exact IE|apply Nat.eqb_refl]. }
  rewrite H in X. destruct X.
Qed.
Lemma map_nth_seq {B} (f : nat -> B) : forall l : list B, (forall t x, nth_error l t = Some x -> f t = x) -> map f (seq 0 (length l)) = l.
Proof.
  intros l. assert (G : forall n (k : list B), (forall t x, nth_error k t = Some x -> f (n + t) = x) -> map f (seq n (length k)) = k).
  { intros n k. revert n. induction k as [|y k IH]; intros n H; [reflexivity|]. cbn [length seq map]. f_equal.
    - rewrite <- (Nat.add_0_r n). apply H. reflexivity.
    - apply IH. intros t x E. rewrite Nat.add_succ_l, <- Nat.add_succ_r. now apply H. }
  apply (G 0).
Qed.
Lemma inv_perm s order l M : inv s order l M -> Permutation l (concat (map landed (threads s))).
Proof.
  intros I. transitivity (map snd order).
  - destruct (heap_run_conserve_gen cmp (map (fun e : nat * A => HInsert (snd e)) order) heap_make hwf_make) as (h & rs & E & _ & _ & PM).
    rewrite (i_run _ _ _ _ I) in E. injection E as <- <-. cbn [h_tree heap_make app] in PM.
    assert (O : outputs (map (fun _ : nat * A => @None A) order) = []) by (clear; induction order; auto). rewrite O in PM. cbn [app] in PM. rewrite <- PM.
    assert (IN : inserted (map (fun e : nat * A => HInsert (snd e)) order) = map snd order) by (clear; induction order as [|e o IH]; [reflexivity|]; cbn; f_equal; exact IH).
    now rewrite IN.
  - rewrite (by_thread_perm (length (threads s)) order) by (eapply inv_tids; eauto).
    assert (E : map (fun t => by_thread t order) (seq 0 (length (threads s))) = map landed (threads s)).
    { rewrite <- (map_length landed). apply map_nth_seq. intros t x E. rewrite nth_error_map in E. destruct (nth_error (threads s) t) as [th|] eqn:N; [|discriminate].
      injection E as <-. now apply (i_done _ _ _ _ I). }
    now rewrite E.
Qed.
Lemma map_seq_rep c l : rep c l -> map c (seq 0 (length l)) = map Some l.
Proof.
  intros R. rewrite <- (map_length Some l). apply map_nth_seq. intros t x E. rewrite nth_error_map in E. destruct (nth_error l t) as [y|] eqn:N; [|discriminate].
  injection E as <-. rewrite R by (eapply nth_error_Some_lt; eauto). exact N.
Qed.
Lemma inv_as_if s order l M : inv s order l M -> lock s = None -> as_if cmp s order.
Proof.
  intros I L. destruct (i_free _ _ _ _ I L) as (C & S1 & S2 & R). exists l. rewrite S2. split; [apply I|]. split.
  - unfold contents. rewrite C. now apply map_seq_rep.
  - rewrite S1. eapply run_wf, (i_run _ _ _ _ I).
Qed.

(** ** Progress *)
Lemma progress s order l M : inv s order l M -> ~ finished s -> exists t s', step cmp s t true = Next s'.
Proof.
  intros I NF. destruct (lock s) as [t|] eqn:L.
  - pose proof (i_lock _ _ _ _ I t L) as LT. destruct (nth_error (threads s) t) as [th|] eqn:N; [|apply nth_error_None in N; lia].
    pose proof (proj2 (i_excl _ _ _ _ I _ _ N) L) as IN. exists t. pose proof (step_inv s t order l M I) as SI.
    destruct (step cmp s t true) as [s'| |] eqn:E; [eauto| |destruct SI]. exfalso. unfold step in E. rewrite N in E. cbv zeta in E.
    destruct (t_pos th); cbn [inside] in IN; try contradiction; try discriminate E; repeat match type of E with context [match ?x with _ => _ end] => destruct x; try discriminate end.
  - assert (D : exists th, In th (threads s) /\ ~ (t_todo th = [] /\ t_pos th = Between)).
    { assert (DD : forall k : list (thread A), ~ Forall (fun th => t_todo th = [] /\ t_pos th = Between) k -> exists th, In th k /\ ~ (t_todo th = [] /\ t_pos th = Between)).
      { induction k as [|y k IH]; intros F; [destruct F; constructor|].
        assert (Y : (t_todo y = [] /\ t_pos y = Between) \/ ~ (t_todo y = [] /\ t_pos y = Between)).
        { destruct (t_todo y); [|right; intros (X & _); discriminate]. destruct (t_pos y); try (right; intros (_ & X); discriminate). now left. }
        destruct Y as [Y|Y]; [|exists y; split; [now left|exact Y]]. destruct IH as (th & Ith & Z); [intros Fk; apply F; now constructor|].
        exists th. split; [now right|exact Z]. }
      apply DD. exact NF. }
    destruct D as (th & Ith & U). apply In_nth_error in Ith as (t & N). exists t. unfold step. rewrite N. cbv zeta.
    pose proof (i_excl _ _ _ _ I _ _ N) as EX. rewrite L in EX.
    destruct (t_pos th) eqn:P; cbn [inside] in EX; try (destruct EX as (EX & _); specialize (EX Logic.I); discriminate EX).
    + destruct (t_todo th) as [|(b & x) r]; [tauto|]. eauto.
    + rewrite L. eauto.
Qed.

(** ** Every execution ends: a bound on the steps still possible *)
Definition weight (T : nat) (p : pos A) : nat :=
  match p with
  | Between => 0 | NoMemory _ => 1 | Unlock _ => 1 | SetCount _ _ _ => 2 | GetCount _ _ => 3
  | Loop _ _ i => 4 * i + 4 | Swap1 _ _ i => 4 * i + 3 | Swap2 _ _ i _ => 4 * i + 2 | Swap3 _ _ i _ => 4 * i + 1
  | GetPos _ _ => 4 * T + 5 | Store _ _ => 4 * T + 6 | SetMax _ _ _ => 4 * T + 7 | SetTree _ _ _ _ => 4 * T + 8 | Copy _ _ _ => 4 * T + 9
  | Alloc _ _ => 4 * T + 10 | Check _ _ => 4 * T + 11 | Lock _ => 4 * T + 12
  end.
Definition tweight (T : nat) (th : thread A) : nat := (4 * T + 13) * length (t_todo th) + weight T (t_pos th).
Definition total (T : nat) (s : st A) : nat := list_sum (map (tweight T) (threads s)).

Lemma sum_upd {B} (f : B -> nat) : forall (l : list B) t a b, nth_error l t = Some a -> list_sum (map f (upd l t b)) + f a = list_sum (map f l) + f b.
Proof.
  induction l as [|y l IH]; intros [|t] a b E; try discriminate; cbn [upd map list_sum fold_right nth_error] in *.
  - injection E as ->. unfold list_sum. cbn. lia.
  - specialize (IH t a b E). unfold list_sum in *. cbn [fold_right]. lia.
Qed.
Lemma landed_short (th : thread A) : length (landed th) <= length (program th).
Proof. unfold landed, program. rewrite !app_length, rev_length, map_length. destruct (t_pos th); cbn [length datum]; lia. Qed.
Lemma step_weight calls s t s' : sound calls s -> step cmp s t true = Next s' -> total (length (concat calls)) s' < total (length (concat calls)) s.
Proof.
  intros ((order & l & M & I) & PR) E. set (T := length (concat calls)) in *. unfold step in E.
  destruct (nth_error (threads s) t) as [th|] eqn:N; [|discriminate]. cbv zeta in E.
  assert (CB : length l <= T).
  { rewrite (Permutation_length (inv_perm _ _ _ _ I)). unfold T. rewrite <- (map_length snd (concat calls)), concat_map, <- PR. clear - cmp.
    generalize (threads s). induction l as [|th l IH]; [constructor|]. cbn [map concat]. rewrite !app_length. pose proof (landed_short th). lia. }
  destruct (i_safe _ _ _ _ I _ _ N) as (_ & LC). pose proof (i_excl _ _ _ _ I _ _ N) as EX.
  assert (G : forall th', tweight T th' < tweight T th -> list_sum (map (tweight T) (upd (threads s) t th')) < total T s).
  { intros th' W. unfold total. pose proof (sum_upd (tweight T) (threads s) t th th' N). lia. }
  unfold tweight in G. destruct (t_pos th) as [|x|b x|b x|b x m|b x m f|b x m|b x|b x|b x i|b x i|b x i tmp|b x i tmp|b x|b x c|x|x] eqn:P; cbn [locked_call inside] in *; cbn [weight] in G;
    try (assert (L : lock s = Some t) by (apply EX; exact Logic.I)); try (pose proof (i_mid _ _ _ _ I t th L N) as MD; rewrite P in MD; cbn [mid] in MD; destruct MD as (CT & MD)); try subst b.
  - destruct (t_todo th) as [|(safe & x) r] eqn:TD; [discriminate|]. injection E as <-. apply G. cbn [t_todo t_pos length]. destruct safe; cbn [weight]; lia.
  - destruct (lock s); [discriminate|]. injection E as <-. apply G. cbn. lia.
  - injection E as <-. apply G. cbn [t_todo t_pos]. destruct (_ <=? _)%N; cbn [weight]; lia.
  - injection E as <-. apply G. cbn. lia.
  - destruct (lost s); [discriminate|]. destruct (_ && _); [|discriminate]. injection E as <-. apply G. cbn [t_todo t_pos weight]. lia.
  - injection E as <-. apply G. cbn. lia.
  - injection E as <-. apply G. cbn. lia.
  - destruct (lost s); [discriminate|]. destruct (_ <? _)%N; [|discriminate]. injection E as <-. apply G. cbn [t_todo t_pos weight]. lia.
  - injection E as <-. apply G. cbn [t_todo t_pos weight]. lia.
  - destruct (i =? 0); [injection E as <-; apply G; cbn [t_todo t_pos weight]; lia|]. destruct (cells s (hparent i)), (cells s i); try discriminate. injection E as <-. apply G.
    cbn [t_todo t_pos]. destruct (_ <? _)%Z; cbn [weight]; lia.
  - destruct (cells s (hparent i)); [|discriminate]. injection E as <-. apply G. cbn [t_todo t_pos weight]. lia.
  - injection E as <-. apply G. cbn [t_todo t_pos weight]. lia.
  - injection E as <-. apply G. cbn [t_todo t_pos weight]. destruct MD as (_ & _ & cur & w & _ & _ & Pi & _). pose proof (hparent_below i Pi). lia.
  - injection E as <-. apply G. cbn [t_todo t_pos weight]. lia.
  - injection E as <-. apply G. cbn [t_todo t_pos weight]. lia.
  - injection E as <-. apply G. cbn [t_todo t_pos weight]. lia.
  - destruct LC.
Qed.
Lemma play_weight calls : forall l s s', memory_lasts l -> sound calls s -> play cmp s l = Next s' ->
  length l + total (length (concat calls)) s' <= total (length (concat calls)) s.
Proof.
  induction l as [|(t & mem) l IH]; intros s s' ML S E; [injection E as <-; cbn; lia|]. apply Forall_cons_iff in ML. destruct ML as (M1 & ML). cbn [snd] in M1. subst mem.
  cbn [play] in E. destruct (step cmp s t true) as [s1| |] eqn:ST; try discriminate. pose proof (step_weight calls s t s1 S ST).
  pose proof (play_sound calls [(t, true)] s ltac:(repeat constructor) S) as S1. cbn [play] in S1. rewrite ST in S1.
  specialize (IH s1 s' ML S1 E). cbn [length]. lia.
Qed.
End Proofs.
