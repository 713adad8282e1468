(** Property theorems for /repo/src/napr_hash.c (C31, C32, C33). *)
From Verif Require Import Util HeapModel HashModel HashSpec HashProofs.

Section Any.
Context {A K : Type} (key_of : A -> K) (keq : K -> K -> bool) (hash : K -> N).
Hypothesis keq_spec : forall a b, keq a b = true <-> a = b.

(** C31: from an empty table with fill factor >= 1, a completed run of
    search-then-set / search / remove returns exactly what a map returns, the
    final searches agree with the map, and no run ever leaves the arrays. *)
Theorem hash_refines_map : forall (n : N) (ff fuel : nat) (ops : list (hashop A K)),
  0 < ff ->
  hash_run key_of keq hash fuel (hash_make n ff) ops <> HUB /\
  forall t rs, hash_run key_of keq hash fuel (hash_make n ff) ops = HOk (t, rs) ->
    rs = snd (map_run key_of keq amap_empty ops) /\
    forall k, hash_search key_of keq hash t k = HOk (fst (map_run key_of keq amap_empty ops) k).
Proof.
  intros n ff fuel ops Hff.
  destruct (run_R key_of keq hash keq_spec fuel ops amap_empty (hash_make n ff)
              (R_make key_of hash n ff Hff)) as [U O].
  split; [exact U|]. intros t rs E. destruct (O _ _ E) as [-> [HR _]].
  split; [reflexivity|]. intros k. exact (search_R key_of keq hash keq_spec _ t k HR).
Qed.

(** C32: iteration enumerates each binding of the map exactly once. *)
Theorem hash_iteration_exact : forall (n : N) (ff fuel : nat) (ops : list (hashop A K)) t rs,
  0 < ff -> hash_run key_of keq hash fuel (hash_make n ff) ops = HOk (t, rs) ->
  exists l, hash_iter (nel t) t (hash_first t) = HOk l /\
    NoDup (map key_of l) /\
    forall k x, fst (map_run key_of keq amap_empty ops) k = Some x <-> (In x l /\ key_of x = k).
Proof.
  intros n ff fuel ops t rs Hff E.
  destruct (run_R key_of keq hash keq_spec fuel ops amap_empty (hash_make n ff)
              (R_make key_of hash n ff Hff)) as [_ O].
  destruct (O _ _ E) as [_ [[W N M] _]].
  exists (elems t). split; [|split; auto].
  apply iter_all; [|rewrite (wf_nel _ _ _ W); apply Nat.le_refl].
  rewrite (wf_len _ _ _ W). apply Nat.neq_0_lt_0, Nat.pow_nonzero. discriminate.
Qed.

(** C33, positive part: with 32-bit hashes and fewer than [ff] different added keys
    sharing one hash value, growth never nests deeper than 33 levels. *)
Theorem hash_set_terminates_partial : forall (n : N) (ff fuel : nat) (ops : list (hashop A K)),
  0 < ff -> 33 <= fuel ->
  (forall x, In x (added ops) -> (hash (key_of x) < 2 ^ 32)%N) ->
  (forall h d, NoDup (map key_of d) -> incl d (added ops) -> (forall x, In x d -> hash (key_of x) = h) -> length d < ff) ->
  exists t rs, hash_run key_of keq hash fuel (hash_make n ff) ops = HOk (t, rs).
Proof.
  intros n ff fuel ops Hff HF B SH.
  assert (E0 : elems (@hash_make A n ff) = []) by (unfold elems, hash_make; simpl; apply concat_repeat_nil).
  pose proof (run_terminates key_of keq hash keq_spec fuel ops HF amap_empty (hash_make n ff)
    (R_make key_of hash n ff Hff)) as T.
  rewrite E0, app_nil_r in T. specialize (T B SH).
  destruct (run_R key_of keq hash keq_spec fuel ops amap_empty (hash_make n ff)
              (R_make key_of hash n ff Hff)) as [U _].
  destruct (hash_run key_of keq hash fuel (hash_make n ff) ops) as [[t rs]| |]; [eauto|congruence|congruence].
Qed.

(** C33, the code violates termination: as many elements as the fill factor with one
    hash value exhaust every recursion depth, whatever the initial size. *)
Theorem hash_set_terminates_refuted : forall (n : N) (ff : nat) (h : N) (l : list A),
  0 < ff -> ff <= length l -> (forall x, In x l -> hash (key_of x) = h) ->
  forall fuel, hash_set_all key_of hash fuel (hash_make n ff) l = HFuel.
Proof.
  intros n ff h l Hff Hl Hh fuel.
  apply (hash_set_all_diverges key_of hash fuel ff 0 h l); auto.
  - apply (hwf_empty key_of hash); auto.
  - unfold elems, hash_make; simpl. rewrite concat_repeat_nil. intros x [].
Qed.
End Any.
Print Assumptions hash_refines_map.
Print Assumptions hash_iteration_exact.
Print Assumptions hash_set_terminates_partial.
Print Assumptions hash_set_terminates_refuted.

(** The ignore-name table of ft_config.c:230 has 32 buckets and fill factor 8, and
    ft_hash_add_ignore_list (ft_config.c:140-165) stores names without looking them
    up first: giving the same name eight times ([-i x,x,x,x,x,x,x,x]) never
    returns, for any hash function. *)
Theorem ignore_list_duplicates_diverge_refuted :
  exists name : list N, forall (hash : list N -> N) fuel,
    hash_set_all (fun x => x) hash fuel (hash_make 32 8) (repeat name 8) = HFuel.
Proof.
  exists [120%N]. intros hash fuel.
  apply (hash_set_terminates_refuted (fun x => x) hash 32 8 (hash [120%N])).
  - apply Nat.lt_0_succ.
  - apply Nat.le_refl.
  - intros x Hx. apply repeat_spec in Hx. now subst.
Qed.
Print Assumptions ignore_list_duplicates_diverge_refuted.

(** Non-vacuity: a run with growth, collision, duplicate add and removal. *)
Example hash_run_example :
  exists t, hash_run (fun x : N * N => fst x) N.eqb (fun k => k) 33 (hash_make 1 2)
    [OAdd (1,10); OAdd (3,30); OAdd (1,11); OSearch 3; ORemove (1,0); OSearch 1; OAdd (5,50); OSearch 5]%N
  = HOk (t, [None; None; Some (1,10); Some (3,30); None; None; None; Some (5,50)])%N /\ power t = 2.
Proof. eexists. vm_compute. split; reflexivity. Qed.
