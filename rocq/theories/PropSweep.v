(** Property C146: a cache filled in path order, marked and swept. *)
From Verif Require Import Util PageModel PageSpec PageProofs PageOps PropPage TxnModel CursorModel TreeModel TreeSpec TreeProofs TreeOps TreePut TreeShape TxnInv DbModel SysModel DbSpec DbProofs CursorSpec DbCommit PropTree PropCommit TreeTotal PropOrder PropTotal PropLoad CacheModel PropCache PropMany.
From Coq Require Import Sorting.Sorted.
Local Open Scope N_scope.

(** ** Specification *)
(** the pairs of the database for a list of entries *)
Definition stored (es : list (bytes * entry)) : list (bytes * bytes) := map (fun pe => (fst pe, entry_bytes (snd pe))) es.
(** entries in ascending order of their paths, for an empty cache; the lengths of the paths are from
    [a] to [b], close enough for pages to be split evenly (see C114) *)
Definition fill_ok (c : cache) (a b : N) (es : list (bytes * entry)) : Prop :=
  c_visited c = [] /\ blank_db (c_env c) (length es) /\ N.of_nat (length es) < 2 ^ 32 /\ StronglySorted klt (map fst es) /\
  balanced (46 + a) (46 + b) /\ balanced (12 + a) (12 + b) /\ b <= 1007 /\ Forall (fun pe => a <= blen (fst pe) <= b) es.
(** one transaction that stores the entries *)
Definition fills (c : cache) (pid tid : N) (es : list (bytes * entry)) (c3 : cache) : Prop :=
  exists c1 c2, cache_begin_write c = Some c1 /\ upserts c1 es = (c2, true) /\ cache_commit_write c2 pid tid = (c3, Ok tt).
Definition marked (c : cache) (ps : list bytes) : cache := fold_left cache_mark ps c.

(** ** Lemmas *)
Lemma upserts_puts : forall es E t vis t', do_ops E t (puts (stored es)) = Ret tt t' -> upserts (mkCache E (Some t) vis) es = (mkCache E (Some t') vis, true).
Proof.
  unfold upserts. induction es as [|(p, e) es IH]; intros E t vis t' H; cbn [stored puts map do_ops do_op fold_left fst snd] in *; [injection H as <-; reflexivity|].
  unfold cache_upsert at 2. cbn [c_active c_env]. destruct (db_put E t p (entry_bytes e)) as [[] t1|x t1| |]; cbn [bindo] in H; try discriminate.
  cbn [set_active c_env c_visited fst snd andb]. apply IH. exact H.
Qed.
Lemma puts_rdonly E ops t t' : do_ops E t ops = Ret tt t' -> t_rdonly t' = t_rdonly t.
Proof. intro H. pose proof (ops_lout E ops t) as L. rewrite H in L. cbn [lout] in L. apply (la_ro _ _ L). Qed.
Lemma marked_is : forall ps c, c_env (marked c ps) = c_env c /\ c_active (marked c ps) = c_active c /\ forall p, In p (c_visited (marked c ps)) <-> In p ps \/ In p (c_visited c).
Proof.
  induction ps as [|q ps IH]; intro c; [cbn; intuition|]. unfold marked. cbn [fold_left]. fold (marked (cache_mark c q) ps).
  destruct (IH (cache_mark c q)) as (A & B & C). split; [exact A|]. split; [exact B|]. intro p. rewrite C. cbn [cache_mark c_visited In]. tauto.
Qed.
Lemma unmarked_in vis l p : In p (unmarked vis l) <-> In p (map fst l) /\ ~ In p vis.
Proof. unfold unmarked. rewrite filter_In, negb_true_iff, <- not_true_iff_false, visited_in. reflexivity. Qed.
Lemma stored_keys es : map fst (stored es) = map fst es.
Proof. unfold stored. rewrite map_map. reflexivity. Qed.
Lemma filled c pid tid a b es : fill_ok c a b es -> exists c3, fills c pid tid es c3 /\ c_visited c3 = [] /\ c_active c3 = None /\
  transact (c_env c) (puts (stored es)) = Ok (c_env c3) /\ even_sizes a b (40 + a) (40 + b) (stored es) /\ blank_db (c_env c) (length (stored es)).
Proof.
  intros (CV & HB & HN & HS & B1 & B2 & KB & F).
  assert (SZ : even_sizes a b (40 + a) (40 + b) (stored es)).
  { split; [replace (6 + (40 + a)) with (46 + a) by lia; replace (6 + (40 + b)) with (46 + b) by lia; exact B1|]. split; [exact B2|]. split; [exact KB|].
    unfold stored. rewrite Forall_forall in *. intros x Hx. apply in_map_iff in Hx. destruct Hx as (pe & <- & Hx). cbn [fst snd].
    rewrite entry_blen. specialize (F _ Hx). lia. }
  assert (HB2 : blank_db (c_env c) (length (stored es))) by (unfold stored; rewrite map_length; exact HB).
  destruct (bulk_load (c_env c) (stored es) a b (40 + a) (40 + b) HB2) as (E' & TR & _); auto.
  { unfold stored. rewrite map_length. exact HN. } { rewrite stored_keys. exact HS. }
  exists (mkCache E' None []). split; [|cbn [c_visited c_active c_env]; auto].
  destruct c as [E act vis]. cbn [c_visited c_env] in *. subst vis. pose proof (begun_is E (proj1 HB)) as B.
  unfold transact in TR. rewrite B in TR. destruct (do_ops (set_locked E true) (begun E) (puts (stored es))) as [[] t'|e t'| |] eqn:DO; try discriminate.
  exists (mkCache (set_locked E true) (Some (begun E)) []), (mkCache (set_locked E true) (Some t') []).
  split; [unfold cache_begin_write; cbn [c_env c_visited]; rewrite B; reflexivity|]. split; [apply upserts_puts; exact DO|].
  unfold cache_commit_write, commit_txn. cbn [c_active c_env c_visited].
  rewrite (puts_rdonly _ _ _ _ DO). pose proof (begin_fields _ _ _ B) as (_ & Et). rewrite Et. cbn [t_rdonly].
  destruct (db_commit (set_locked E true) t' None) as [E2 [[]|e| |]]; try discriminate. injection TR as <-. reflexivity.
Qed.
Lemma sorted_NoDup l : StronglySorted klt l -> NoDup l.
Proof. intro C. induction C as [|k ks HS IH F]; constructor; auto. intro X. rewrite Forall_forall in F. exact (klt_irrefl _ (F _ X)). Qed.

(** ** C146
    Storing entries in path order always succeeds.  Then, if the file has at most 510 pages or there
    are at most 254 entries, whatever paths are marked, the sweep succeeds, and keeps the entries
    marked with what was stored, and nothing else.  Missing for the full claim: more pages (below),
    and paths in another order (C27). *)
Theorem fill_mark_sweep_partial : forall c pid tid a b es, fill_ok c a b es ->
  exists c3, fills c pid tid es c3 /\
    (N.of_nat (length es) <= 254 \/ m_last (live_meta (c_env c3)) <= 509 ->
     forall ps fuel, (length es + 1 < fuel)%nat -> exists c4, cache_sweep fuel (marked c3 ps) = Some (c4, Ok tt) /\ c_visited c4 = [] /\ c_active c4 = None /\
       forall path, blen path < 65536 -> read_now (c_env c4) path =
         if in_dec key_dec path ps then match lookup path (stored es) with Some v => Ok v | None => Err NOTFOUND end else Err NOTFOUND).
Proof.
  intros c pid tid a b es HF. destruct (filled c pid tid a b es HF) as (c3 & FI & CV & CA & TR & SZ & HB). exists c3. split; [exact FI|].
  destruct HF as (_ & _ & HN & HS & _). set (l := stored es) in *. assert (LL : length l = length es) by (unfold l, stored; apply map_length).
  assert (HK : StronglySorted klt (map fst l)) by (unfold l; rewrite stored_keys; exact HS).
  rewrite <- LL in HN. destruct (loaded _ l _ _ _ _ HB HN HK SZ) as (E' & TR2 & SC & BI & LD). rewrite TR in TR2. injection TR2 as <-.
  destruct (bulk_load _ l _ _ _ _ HB HN HK SZ) as (E2 & TR2 & RD). rewrite TR in TR2. injection TR2 as <-.
  intros SM ps fuel Hf. destruct (marked_is ps c3) as (M1 & M2 & M3). set (c' := marked c3 ps) in *. rewrite <- M1 in SC, BI, LD.
  destruct (sweep_transact fuel c' l (proj1 (laid_healthy _ _ LD)) SC BI) as (c4 & r & X & Y & Z & _); [rewrite LL; exact Hf|].
  destruct (laid_outcome _ l (unmarked (c_visited c') l) LD (proj1 (proj2 BI))) as (O & _).
  { rewrite M1. exact RD. } { apply NoDup_filter. apply sorted_NoDup. exact HK. } { intros k Hk. apply unmarked_in in Hk. tauto. }
  destruct (O ltac:(rewrite LL, M1; exact SM)) as (E2 & T2 & R2).
  destruct (Z E2 T2) as (-> & CE). destruct (Y E2 eq_refl CE) as (_ & V4 & A4). exists c4. splits; auto.
  intros path Hp. rewrite CE, (R2 path Hp), M1. pose proof (RD path Hp) as RP. unfold read_now in *.
  destruct (in_dec key_dec path (unmarked (c_visited c') l)) as [I|I]; destruct (in_dec key_dec path ps) as [J|J]; auto.
  - apply unmarked_in in I. rewrite M3 in I. tauto.
  - rewrite RP. destruct (lookup path l) as [v|] eqn:LK; [|reflexivity]. exfalso. apply I. apply unmarked_in. split; [apply lookup_in_iff; congruence|].
    rewrite M3, CV. intros [|[]]. auto.
Qed.
Print Assumptions fill_mark_sweep_partial.

(** When the entries need more than 508 leaves and none is marked, the sweep is refused, and the
    cache is as before: it is refused again whenever it is tried. *)
Theorem sweep_refused : forall c pid tid a b es, fill_ok c a b es -> 508 * 4078 < kcost (stored es) ->
  exists c3, fills c pid tid es c3 /\
    (N.of_nat (length es) <= 4095 \/ m_last (live_meta (c_env c3)) <= 8191 ->
     forall fuel, (length es + 1 < fuel)%nat -> cache_sweep fuel c3 = Some (c3, Err ENOSPC)).
Proof.
  intros c pid tid a b es HF KC. destruct (filled c pid tid a b es HF) as (c3 & FI & CV & CA & TR & SZ & HB). exists c3. split; [exact FI|].
  destruct HF as (_ & _ & HN & HS & _). set (l := stored es) in *. assert (LL : length l = length es) by (unfold l, stored; apply map_length).
  assert (HK : StronglySorted klt (map fst l)) by (unfold l; rewrite stored_keys; exact HS).
  rewrite <- LL in HN. destruct (loaded _ l _ _ _ _ HB HN HK SZ) as (E' & TR2 & SC & BI & LD). rewrite TR in TR2. injection TR2 as <-.
  destruct (bulk_load _ l _ _ _ _ HB HN HK SZ) as (E2 & TR2 & RD). rewrite TR in TR2. injection TR2 as <-.
  intros SM fuel Hf. destruct (sweep_transact fuel c3 l (proj1 (laid_healthy _ _ LD)) SC BI) as (c4 & r & X & _ & _ & Z); [rewrite LL; exact Hf|].
  assert (U : unmarked (c_visited c3) l = map fst l).
  { rewrite CV. unfold unmarked. clear. induction (map fst l) as [|x r IH]; [reflexivity|]. cbn [filter visited existsb negb]. f_equal. exact IH. }
  rewrite U in Z. destruct (laid_outcome _ l (map fst l) LD (proj1 (proj2 BI)) RD (sorted_NoDup _ HK) (incl_refl _)) as (_ & O).
  rewrite LL in O. specialize (O SM KC eq_refl). destruct (Z ENOSPC O) as (-> & ->). rewrite X. destruct c3 as [E3 act vis]. cbn [c_active c_env c_visited] in *. subst act vis. reflexivity.
Qed.
Print Assumptions sweep_refused.

(** ** Cases *)
(** paths of 992 bytes *)
Definition shelf (n : nat) : list (bytes * entry) := map (fun i => (digits i ++ fill 990 7, some_entry 1)) (seq 0 n).
Definition new_cache : cache := mkCache env_create None [].
Lemma shelf_ok n : N.of_nat n < 4000 -> rising (map (fun i => digits i ++ fill 990 7) (seq 0 n)) = true ->
  fill_ok new_cache 992 992 (shelf n) /\ kcost (stored (shelf n)) = 1038 * N.of_nat n /\ length (shelf n) = n.
Proof.
  intros Hn HR. assert (L : length (shelf n) = n) by (unfold shelf; rewrite map_length, seq_length; reflexivity). split; [|split; [|exact L]].
  - unfold fill_ok. rewrite L. split; [reflexivity|]. split.
    { assert (M : m_last (live_meta env_create) = 1) by (vm_compute; reflexivity). unfold blank_db, new_cache. cbn [c_env]. rewrite M.
      split; [vm_compute; reflexivity|]. split; [intro q; left; split; reflexivity|]. split; [vm_compute; reflexivity|]. split; [vm_compute; reflexivity|].
      split; [lia|]. clear - Hn. lia. }
    split; [clear - Hn; lia|]. split; [apply rising_sorted; unfold shelf; rewrite map_map; exact HR|].
    split; [apply balanced_same; lia|]. split; [apply balanced_same; lia|]. split; [lia|].
    apply Forall_forall. intros e He. apply in_map_iff in He. destruct He as (i & <- & Hi). cbn [fst].
    unfold blen. rewrite app_length. unfold fill. rewrite repeat_length. cbn [length digits]. lia.
  - unfold kcost, stored, shelf. rewrite !map_map. rewrite (map_ext _ (fun _ => 1038)).
    + clear. generalize 0%nat. induction n as [|n IH]; intro a; [reflexivity|]. cbn [seq map]. change (sumN (1038 :: map (fun _ => 1038) (seq (S a) n))) with (1038 + sumN (map (fun _ => 1038) (seq (S a) n))). rewrite IH. lia.
    + intro i. cbn [fst snd]. unfold leaf_size, LEAF_BASE. rewrite entry_blen. unfold blen. rewrite app_length. unfold fill. rewrite repeat_length. reflexivity.
Qed.
Lemma shelf_refused n : 2000 <= N.of_nat n < 4000 -> rising (map (fun i => digits i ++ fill 990 7) (seq 0 n)) = true ->
  exists c3, fills new_cache 0 0 (shelf n) c3 /\ forall fuel, (n + 1 < fuel)%nat -> cache_sweep fuel c3 = Some (c3, Err ENOSPC).
Proof.
  intros Hn HR. destruct (shelf_ok n) as (A & B & C); [lia|exact HR|].
  destruct (sweep_refused new_cache 0 0 992 992 (shelf n) A) as (c3 & F & H); [rewrite B; lia|]. exists c3. split; [exact F|]. rewrite C in H. apply H. left. lia.
Qed.
(** 2000 files with long names can be cached, but if all are deleted the cache can never be swept *)
Theorem fill_mark_sweep_refuted : exists n c3, fills new_cache 0 0 (shelf n) c3 /\ forall fuel, (n + 1 < fuel)%nat -> cache_sweep fuel c3 = Some (c3, Err ENOSPC).
Proof. exists 2000%nat. apply shelf_refused; [lia|vm_compute; reflexivity]. Qed.
Print Assumptions fill_mark_sweep_refuted.

(** 200 can be swept *)
Example fill_case : fill_ok new_cache 992 992 (shelf 200) /\ N.of_nat (length (shelf 200)) <= 254.
Proof. destruct (shelf_ok 200) as (A & _ & C); [lia|vm_compute; reflexivity|]. split; [exact A|]. rewrite C. lia. Qed.
(** one of three *)
Example sweep_three : match cache_begin_write new_cache with
  | Some c1 => match upserts c1 (shelf 3) with
    | (c2, true) => match cache_commit_write c2 0 0 with
      | (c3, Ok _) => match cache_sweep 5 (marked c3 [digits 1 ++ fill 990 7; [1; 2]]) with
        | Some (c4, Ok _) => match read_now (c_env c4) (digits 1 ++ fill 990 7), read_now (c_env c4) (digits 0 ++ fill 990 7), read_now (c_env c4) (digits 2 ++ fill 990 7) with
           | Ok v, Err NOTFOUND, Err NOTFOUND => if list_eq_dec N.eq_dec v (entry_bytes (some_entry 1)) then true else false
           | _, _, _ => false end
        | _ => false end
      | _ => false end
    | _ => false end
  | None => false end = true.
Proof. vm_compute. reflexivity. Qed.
