(** Proofs about whole runs: groups printed by the text and the JSON report. *)
From Verif Require Import Util HeapModel CollectModel ProcessModel ReportSpec ReportProofs ReportGroups ReportArrays.
From Coq Require Import Sorting.Permutation Sorting.Sorted.
Local Open Scope Z_scope.

(** ** The comparison on cells *)
Lemma chksum_cmp_set a b : k_file a <> None -> k_file b <> None ->
  (chksum_cmp a b <= 0 <->
   (k_hash a < k_hash b)%N \/ (k_hash a = k_hash b /\ forall f g, k_file a = Some f -> k_file b = Some g -> prio_val f <= prio_val g)).
Proof.
  unfold chksum_cmp. destruct (k_file a) as [f|]; [|congruence]. destruct (k_file b) as [g|]; [|congruence].
  intros _ _. destruct (k_hash a <? k_hash b)%N eqn:E; [split; [left; lia|lia]|].
  destruct (k_hash b <? k_hash a)%N eqn:F; [split; [lia|]; intros [|[]]; lia|].
  split.
  - intros H. right. split; [lia|]. intros f' g' [= <-] [= <-]. lia.
  - intros [|[_ H]]; [lia|]. specialize (H f g eq_refl eq_refl). lia.
Qed.

Definition set_cells (l : list chk) : Prop := Forall (fun k => k_file k <> None) l.

Lemma sorted_cells qsort l : sorts qsort -> set_cells l ->
  Permutation l (qsort chksum_cmp l) /\ StronglySorted (fun a b => chksum_cmp a b <= 0) (qsort chksum_cmp l).
Proof.
  intros Q S. unfold set_cells in S. rewrite Forall_forall in S. destruct (Q chksum_cmp l) as [P O].
  split; auto. apply O.
  - intros a b Ia Ib. rewrite !chksum_cmp_set by auto.
    destruct (k_file a) as [f|] eqn:Fa; [|destruct (S a Ia Fa)].
    destruct (k_file b) as [g|] eqn:Fb; [|destruct (S b Ib Fb)].
    destruct (N.lt_trichotomy (k_hash a) (k_hash b)) as [H|[H|H]]; auto.
    destruct (Z.le_ge_cases (prio_val f) (prio_val g)) as [X|X]; [left|right]; right; split; auto;
      intros f' g' [= <-] [= <-]; auto.
  - intros a b d Ia Ib Id. rewrite !chksum_cmp_set by auto.
    destruct (k_file b) as [g|] eqn:Fb; [|destruct (S b Ib Fb)].
    intros [H1|[H1 P1]] [H2|[H2 P2]]; try (left; lia). right. split; [congruence|].
    intros f h Ef Eh. specialize (P1 f g Ef eq_refl). specialize (P2 g h eq_refl Eh). lia.
Qed.

Section M.
Variable hash_of : file -> option N.
Variable junk : file -> N.
Variable compare : file -> file -> cmpres.
Variable qsort : (chk -> chk -> Z) -> list chk -> list chk.
Variable iter : table -> table.
Hypothesis Q : sorts qsort.
Hypothesis IT : visits_all iter.

Notation the_entry := (the_entry hash_of junk).
Notation cell := (cell hash_of junk).

Lemma cells_set json L l : set_cells (map (cell json L) l).
Proof. apply Forall_forall. intros k I. apply in_map_iff in I as (f & <- & _). cbn. discriminate. Qed.

Lemma all_set_cells l : set_cells l -> all_set l = true.
Proof.
  unfold set_cells, all_set. rewrite Forall_forall. intros H. apply forallb_forall. intros k I.
  apply H in I. now destruct (k_file k).
Qed.

Definition srt (json : bool) (L : list file) (s : Z) : list chk := qsort chksum_cmp (map (cell json L) (of_size s L)).

Lemma report_size_eq L s : report_size compare qsort (the_entry false L s) = report_array compare (cnt s L) (srt false L s).
Proof.
  unfold report_size, ReportGroups.the_entry. cbn [fs_arr fs_nb]. rewrite all_set_cells by apply cells_set.
  unfold fs_ck. cbn [fs_arr]. rewrite map_length. fold (cnt s L).
  cbn [negb]. now rewrite Nat.ltb_irrefl.
Qed.
Lemma json_size_eq L s : json_size compare qsort (the_entry true L s) = json_array compare (cnt s L) s (srt true L s).
Proof.
  unfold json_size, ReportGroups.the_entry. cbn [fs_arr fs_nb fs_val]. rewrite all_set_cells by apply cells_set.
  unfold fs_ck. cbn [fs_arr]. rewrite map_length. fold (cnt s L).
  cbn [negb]. now rewrite Nat.ltb_irrefl.
Qed.

Lemma fold_text_eq L ss :
  fold_sizes (fun s => report_size compare qsort (the_entry false L s)) ss =
  fold_sizes (fun s => report_array compare (cnt s L) (srt false L s)) ss.
Proof. induction ss as [|s ss IH]; cbn [fold_sizes]; auto. now rewrite report_size_eq, IH. Qed.

Lemma srt_perm json L s : Permutation (map (cell json L) (of_size s L)) (srt json L s).
Proof. apply (Q chksum_cmp). Qed.
Lemma srt_set json L s : set_cells (srt json L s).
Proof. eapply Permutation_Forall; [apply srt_perm|apply cells_set]. Qed.
Lemma srt_sorted json L s : StronglySorted (fun a b => chksum_cmp a b <= 0) (srt json L s).
Proof. apply sorted_cells; auto. apply cells_set. Qed.
Lemma srt_in json L s k : In k (srt json L s) <-> exists f, k = cell json L f /\ In f L /\ f_size f = s.
Proof.
  split.
  - intros I. apply (Permutation_in k (Permutation_sym (srt_perm json L s))) in I.
    apply in_map_iff in I as (f & <- & I). apply of_size_in in I. eauto.
  - intros (f & -> & I). apply (Permutation_in _ (srt_perm json L s)). apply in_map. now apply of_size_in.
Qed.
Lemma srt_length json L s : length (srt json L s) = cnt s L.
Proof. rewrite <- (Permutation_length (srt_perm json L s)), map_length. reflexivity. Qed.
Lemma srt_hsorted json L s : hsorted (srt json L s).
Proof.
  assert (S := srt_sorted json L s). assert (X := srt_set json L s). unfold set_cells in X.
  induction S as [|k l S IH F]; [constructor|]. inversion X; subst. constructor; [now apply IH|].
  rewrite Forall_forall in *. intros y I. specialize (F y I).
  apply chksum_cmp_set in F; auto. lia.
Qed.
Lemma srt_files json L s : Permutation (of_size s L) (cell_files (srt json L s)).
Proof.
  transitivity (cell_files (map (cell json L) (of_size s L))).
  - now rewrite cell_files_cells.
  - unfold cell_files. apply Permutation_flat_map. apply srt_perm.
Qed.
Lemma srt_with_hash_in json L s hv f : In f (with_hash hv (srt json L s)) <->
  In f L /\ f_size f = s /\ hv_of hash_of junk json L f = hv.
Proof.
  unfold with_hash, cell_files. rewrite in_flat_map. split.
  - intros (k & I & J). apply filter_In in I as [I E]. apply srt_in in I as (g & -> & I & Z).
    cbn in J, E. destruct J as [->|[]]. repeat split; auto. lia.
  - intros (I & Z & E). exists (cell json L f). split; [|now left]. apply filter_In. split.
    + apply srt_in. eauto.
    + cbn. lia.
Qed.

(** ** Folding over the sizes *)
Lemma fold_sizes_in {G} (one : Z -> list G * status) ss : forall gs st, fold_sizes one ss = (gs, st) ->
  forall g, In g gs -> exists s, In s ss /\ In g (fst (one s)).
Proof.
  induction ss as [|s ss IH]; intros gs st; cbn [fold_sizes].
  - intros [= <- <-] g [].
  - destruct (one s) as [gs1 st1] eqn:E. destruct st1;
      [destruct (fold_sizes one ss) as [gs2 st2]|..]; intros [= <- <-] g I.
    + apply in_app_iff in I as [I|I].
      * exists s. rewrite E. split; [now left|auto].
      * destruct (IH _ _ eq_refl g I) as (s' & I' & J). exists s'. split; [now right|auto].
    + exists s. rewrite E. split; [now left|auto].
    + exists s. rewrite E. split; [now left|auto].
    + exists s. rewrite E. split; [now left|auto].
Qed.
Lemma fold_sizes_ok {G} (one : Z -> list G * status) ss : (forall s, In s ss -> snd (one s) = SOk) ->
  fold_sizes one ss = (flat_map (fun s => fst (one s)) ss, SOk).
Proof.
  induction ss as [|s ss IH]; intros H; cbn [fold_sizes flat_map]; auto.
  rewrite IH by (intros; apply H; now right).
  specialize (H s (or_introl eq_refl)). destruct (one s) as [gs st]. cbn in H. subst st. reflexivity.
Qed.
Lemma fold_sizes_ok_inv {G} (one : Z -> list G * status) ss gs : fold_sizes one ss = (gs, SOk) ->
  (forall s, In s ss -> snd (one s) = SOk) /\ gs = flat_map (fun s => fst (one s)) ss.
Proof.
  revert gs. induction ss as [|s ss IH]; intros gs; cbn [fold_sizes flat_map].
  - intros [= <-]. split; auto. intros s [].
  - destruct (one s) as [gs1 st1] eqn:E. destruct st1; try discriminate.
    destruct (fold_sizes one ss) as [gs2 st2]. intros [= <- ->].
    destruct (IH gs2 eq_refl) as [A B]. split; [|cbn; now f_equal].
    intros s' [<-|I]; [now rewrite E|auto].
Qed.
(** the groups of different sizes are disjoint *)
Lemma fold_sizes_perm L (one : Z -> list (list file) * status) ss : NoDup ss ->
  (forall s, exists rest, Permutation (of_size s L) (concat (fst (one s)) ++ rest)) ->
  forall gs st, fold_sizes one ss = (gs, st) ->
  exists rest, Permutation (flat_map (fun s => of_size s L) ss) (concat gs ++ rest).
Proof.
  intros N H. induction ss as [|s ss IH]; intros gs st; cbn [fold_sizes flat_map].
  - intros [= <- <-]. exists []. auto.
  - inversion N; subst. destruct (H s) as (rest & P).
    destruct (one s) as [gs1 st1] eqn:E. cbn [fst] in P.
    assert (DF : exists rest, Permutation (of_size s L ++ flat_map (fun s => of_size s L) ss) (concat gs1 ++ rest)).
    { exists (rest ++ flat_map (fun s => of_size s L) ss). rewrite P. now rewrite app_assoc. }
    destruct st1; [|intros [= <- <-]; exact DF|intros [= <- <-]; exact DF|intros [= <- <-]; exact DF].
    destruct (fold_sizes one ss) as [gs2 st2]. intros [= <- <-].
    destruct (IH ltac:(auto) _ _ eq_refl) as (rest2 & P2).
    exists (rest ++ rest2). rewrite P, P2, concat_app, <- !app_assoc. apply Permutation_app_head.
    rewrite !app_assoc. apply Permutation_app_tail. apply Permutation_app_comm.
Qed.

Lemma gt_nodup ss : StronglySorted Z.gt ss -> NoDup ss.
Proof.
  induction 1 as [|s ss S IH F]; constructor; auto. intros I. rewrite Forall_forall in F. apply F in I. lia.
Qed.

(** the JSON result in terms of the text loop over JSON cells *)
Lemma json_as_text L ss js :
  fold_sizes (fun s => json_size compare qsort (the_entry true L s)) ss = (js, SOk) ->
  fold_sizes (fun s => report_array compare (cnt s L) (srt true L s)) ss = (map jfiles js, SOk).
Proof.
  intros H. apply fold_sizes_ok_inv in H as [A ->].
  rewrite fold_sizes_ok.
  - f_equal. clear -A. induction ss as [|s ss IH]; cbn [flat_map]; auto. rewrite map_app, IH.
    + f_equal. rewrite json_size_eq. symmetry.
      destruct (json_array_eq compare s (cnt s L) (srt true L s)) as [E F]. apply F.
      rewrite <- E, <- json_size_eq. apply A. now left.
    + intros s' I. apply A. now right.
  - intros s I. apply A in I. rewrite json_size_eq in I.
    destruct (json_array_eq compare s (cnt s L) (srt true L s)) as [E F]. congruence.
Qed.

(** ** Every printed group *)
Definition printed (json : bool) (L : list file) (gs : list (list file)) : Prop :=
  (forall g, In g gs -> exists s, good_group compare (srt json L s) g) /\
  exists rest, Permutation L (concat gs ++ rest).

Lemma printed_fold json L ss gs st : NoDup ss ->
  fold_sizes (fun s => report_array compare (cnt s L) (srt json L s)) ss = (gs, st) ->
  printed json L gs.
Proof.
  intros N E. split.
  - intros g I. destruct (fold_sizes_in _ _ _ _ E g I) as (s & _ & J). exists s.
    destruct (report_array compare (cnt s L) (srt json L s)) as [gs1 st1] eqn:R. cbn in J.
    apply report_array_inv in R as [R _]. rewrite Forall_forall in R. now apply R.
  - destruct (fold_sizes_perm L _ ss N (fun s =>
      match report_array compare (cnt s L) (srt json L s) as p return
        (report_array compare (cnt s L) (srt json L s) = p -> exists rest, Permutation (of_size s L) (concat (fst p) ++ rest))
      with (gs, st) => fun R => let (rest, P) := proj2 (report_array_inv compare _ _ _ _ R) in
          ex_intro _ rest (Permutation_trans (srt_files json L s) P) end eq_refl) _ _ E) as (rest & P).
    rewrite sizes_perm in P by auto.
    exists (rest ++ filter (fun f => negb (existsb (Z.eqb (f_size f)) ss)) L).
    rewrite app_assoc, <- P. clear. induction L as [|f L IH]; cbn [filter]; auto.
    destruct (existsb _ ss); cbn [negb app]; [now constructor|].
    rewrite IH at 1. apply Permutation_middle.
Qed.

Lemma run_text_printed c l gs st : sizes_ok l ->
  run_text hash_of junk compare qsort iter c l = (gs, st) ->
  exists L, Permutation (collected c l) L /\ printed false L gs.
Proof.
  intros S E. destruct (collected c l) as [|f0 r0] eqn:C.
  - destruct (runs_empty hash_of junk compare qsort iter IT c l C) as [A _]. rewrite A in E.
    injection E as <- <-. exists []. split; auto. split; [intros g []|exists []; auto].
  - destruct (runs_ok hash_of junk compare qsort iter IT c l S) as (L & ss & P & Z & A & _); [congruence|].
    rewrite A in E. exists L. rewrite C in P. split; auto. eapply (printed_fold _ _ ss); [apply gt_nodup, Z|].
    rewrite <- E. symmetry. apply fold_text_eq.
Qed.
Lemma run_json_printed c l js st : sizes_ok l ->
  run_json hash_of junk compare qsort iter c l = (js, st) ->
  exists L, Permutation (collected c l) L /\ printed true L (map jfiles js).
Proof.
  intros S E. destruct (collected c l) as [|f0 r0] eqn:C.
  - destruct (runs_empty hash_of junk compare qsort iter IT c l C) as [_ A]. rewrite A in E.
    injection E as <- <-. exists []. split; auto. split; [intros g []|exists []; auto].
  - destruct (runs_ok hash_of junk compare qsort iter IT c l S) as (L & ss & P & Z & _ & A); [congruence|].
    rewrite A in E. exists L. rewrite C in P. split; auto.
    destruct (fold_sizes _ ss) as [js1 st1] eqn:F.
    assert (D : (st1 = SOk /\ js1 = js) \/ js = []).
    { destruct st1; injection E as <- <-; auto. }
    destruct D as [[-> ->] | ->].
    + eapply (printed_fold _ _ ss); [apply gt_nodup, Z|]. apply json_as_text. exact F.
    + split; [intros g []|]. exists L. auto.
Qed.

(** ** Complete reports *)
Variable content : file -> list N.

Lemma two_cells_differ a b f g fu : k_file a = Some f -> k_file b = Some g ->
  k_hash a = k_hash b -> compare f g = Differ -> report_array compare (S (S fu)) [a; b] = ([], SOk).
Proof.
  intros A B H D. cbn [report_array]. rewrite A. cbn [pairs]. rewrite H, N.eqb_refl, B, D.
  cbn [report_array]. rewrite B. cbn [pairs]. now destruct fu.
Qed.
Lemma two_cells_apart a b f g fu : k_file a = Some f -> k_file b = Some g ->
  k_hash a <> k_hash b -> report_array compare (S (S fu)) [a; b] = ([], SOk).
Proof.
  intros A B H. cbn [report_array]. rewrite A. cbn [pairs].
  replace (k_hash b =? k_hash a)%N with false by lia.
  cbn [report_array]. rewrite B. cbn [pairs]. now destruct fu.
Qed.

(** within one size: equal hash values of cells mean equal content *)
Definition separated (json : bool) (L : list file) (s : Z) : Prop :=
  forall f g, In f L -> In g L -> f_size f = s -> f_size g = s ->
    (hv_of hash_of junk json L f = hv_of hash_of junk json L g <-> content f = content g).

Lemma separated_complete json L s : exact_compare content compare L -> separated json L s ->
  exists gs, report_array compare (cnt s L) (srt json L s) = (gs, SOk) /\
    forall f g, In f L -> In g L -> f_size f = s -> f_size g = s -> f <> g -> content f = content g ->
      exists grp, In grp gs /\ In f grp /\ In g grp.
Proof.
  intros X SP. destruct (report_array_complete compare (cnt s L) (srt json L s)) as (gs & R & G).
  - rewrite srt_length. lia.
  - apply srt_hsorted.
  - intros a b Ia Ib _ Na. apply srt_in in Ia as (f & -> & _). discriminate.
  - intros a b f g Ia Ib E Fa Fb. apply srt_in in Ia as (f' & -> & Ia & Za).
    apply srt_in in Ib as (g' & -> & Ib & Zb). cbn in E, Fa, Fb. injection Fa as <-. injection Fb as <-.
    apply X; auto; [congruence|]. apply SP; auto.
  - exists gs. split; auto. intros f g If Ig Zf Zg NE C.
    exists (with_hash (hv_of hash_of junk json L f) (srt json L s)).
    assert (Wf : In f (with_hash (hv_of hash_of junk json L f) (srt json L s))) by (apply srt_with_hash_in; auto).
    assert (Wg : In g (with_hash (hv_of hash_of junk json L f) (srt json L s))).
    { apply srt_with_hash_in. repeat split; auto. symmetry. now apply SP. }
    split; auto. apply G. eexists. split; [reflexivity|].
    destruct (with_hash _ _) as [|x [|y r]]; [destruct Wf| |cbn; lia].
    destruct Wf as [->|[]]. destruct Wg as [->|[]]. congruence.
Qed.

Lemma cnt2 s L : cnt s L = 2%nat -> exists f g, of_size s L = [f; g].
Proof.
  unfold cnt. destruct (of_size s L) as [|f [|g [|h r]]]; try discriminate. eauto.
Qed.

Lemma separated_dec json L s : no_collision content hash_of L -> sized content L ->
  separated json L s \/
  (json = false /\ cnt s L = 2%nat /\ forall f g, of_size s L = [f; g] -> content f <> content g).
Proof.
  intros NC LEN. destruct (direct json L s) eqn:D.
  - assert (H0 : forall f, f_size f = s -> hv_of hash_of junk json L f = 0%N).
    { intros f <-. unfold hv_of. now rewrite D. }
    unfold direct in D. apply andb_true_iff in D as [D J].
    destruct (s =? 0) eqn:Z0.
    + left. intros f g If Ig Zf Zg. rewrite !H0 by auto. split; auto. intros _.
      assert (f_size f = 0) by lia. assert (f_size g = 0) by lia.
      assert (LF := LEN f If). assert (LG := LEN g Ig). destruct (content f); [|cbn in *; lia]. destruct (content g); [auto|cbn in *; lia].
    + assert (C : cnt s L = 2%nat) by lia. destruct (cnt2 s L C) as (f & g & E).
      destruct (list_eq_dec N.eq_dec (content f) (content g)) as [Q1|Q1].
      * left. assert (IN : forall x, In x L -> f_size x = s -> x = f \/ x = g).
        { intros x I Zx. assert (I' : In x (of_size s L)) by (now apply of_size_in).
          rewrite E in I'. destruct I' as [<-|[<-|[]]]; auto. }
        intros x y Ix Iy Zx Zy. rewrite !H0 by auto. split; auto. intros _.
        destruct (IN x Ix Zx) as [-> | ->]; destruct (IN y Iy Zy) as [-> | ->]; auto.
      * right. repeat split; [now destruct json|auto|]. intros x y E'. rewrite E in E'.
        injection E' as <- <-. exact Q1.
  - left. intros f g If Ig Zf Zg. assert (HD : forall x, f_size x = s -> hv_of hash_of junk json L x = match hash_of x with Some h => h | None => junk x end).
    { intros x <-. unfold hv_of. now rewrite D. }
    rewrite !HD by auto. destruct (NC f g If Ig) as [[hf Hf] NF]; [congruence|].
    destruct (NC g f Ig If) as [[hg Hg] _]; [congruence|].
    rewrite Hf, Hg in *. rewrite <- NF. split; congruence.
Qed.

Lemma two_sorted L json s f g : of_size s L = [f; g] ->
  srt json L s = [cell json L f; cell json L g] \/ srt json L s = [cell json L g; cell json L f].
Proof.
  intros E. assert (P := srt_perm json L s). rewrite E in P. cbn [map] in P.
  apply Permutation_length_2_inv in P. intuition.
Qed.

Lemma size_complete json L s : exact_compare content compare L -> no_collision content hash_of L -> sized content L ->
  (2 <= cnt s L)%nat ->
  exists gs, report_array compare (cnt s L) (srt json L s) = (gs, SOk) /\
    forall f g, In f L -> In g L -> f_size f = s -> f_size g = s -> f <> g -> content f = content g ->
      exists grp, In grp gs /\ In f grp /\ In g grp.
Proof.
  intros X NC LEN C. destruct (separated_dec json L s NC LEN) as [SP|(-> & C2 & D)]; [now apply separated_complete|].
  destruct (cnt2 s L C2) as (f & g & E). specialize (D f g E).
  assert (If : In f L /\ f_size f = s) by (apply of_size_in; rewrite E; now left).
  assert (Ig : In g L /\ f_size g = s) by (apply of_size_in; rewrite E; right; now left).
  exists []. split.
  - assert (HV : hv_of hash_of junk false L f = hv_of hash_of junk false L g).
    { unfold hv_of, direct. replace (f_size f) with s by (now destruct If).
      replace (f_size g) with s by (now destruct Ig). rewrite C2. reflexivity. }
    rewrite C2. destruct (two_sorted L false s f g E) as [-> | ->].
    + apply (two_cells_differ _ _ f g); [reflexivity|reflexivity|exact HV|]. apply X; try apply If; try apply Ig; auto. destruct If, Ig; congruence.
    + apply (two_cells_differ _ _ g f); [reflexivity|reflexivity|symmetry; exact HV|]. apply X; try apply If; try apply Ig; auto. destruct If, Ig; congruence.
  - intros x y Ix Iy Zx Zy NE CE.
    assert (IN : forall z, In z L -> f_size z = s -> z = f \/ z = g).
    { intros z I Zz. assert (I' : In z (of_size s L)) by (now apply of_size_in).
      rewrite E in I'. destruct I' as [<-|[<-|[]]]; auto. }
    destruct (IN x Ix Zx) as [-> | ->]; destruct (IN y Iy Zy) as [-> | ->]; congruence.
Qed.

Lemma exact_perm L L' : Permutation L L' -> exact_compare content compare L -> exact_compare content compare L'.
Proof.
  intros P X f g If Ig. apply X; eapply Permutation_in; try eassumption; now symmetry.
Qed.
Lemma nocol_perm L L' : Permutation L L' -> no_collision content hash_of L -> no_collision content hash_of L'.
Proof.
  intros P X f g If Ig. apply X; eapply Permutation_in; try eassumption; now symmetry.
Qed.

Lemma sized_perm L L' : Permutation L L' -> sized content L -> sized content L'.
Proof. intros P X f If. apply X. eapply Permutation_in; try eassumption. now symmetry. Qed.

Definition complete (L : list file) (gs : list (list file)) : Prop :=
  forall f g, In f L -> In g L -> f <> g -> content f = content g -> exists grp, In grp gs /\ In f grp /\ In g grp.

Lemma fold_complete json L ss : sizes_list L ss ->
  exact_compare content compare L -> no_collision content hash_of L -> sized content L ->
  exists gs, fold_sizes (fun s => report_array compare (cnt s L) (srt json L s)) ss = (gs, SOk) /\ complete L gs.
Proof.
  intros [_ Z] X NC LEN. exists (flat_map (fun s => fst (report_array compare (cnt s L) (srt json L s))) ss). split.
  - apply fold_sizes_ok. intros s I. apply Z in I. destruct (size_complete json L s X NC LEN I) as (gs & -> & _). auto.
  - intros f g If Ig NE C.
    assert (SZ : f_size f = f_size g) by (rewrite <- (LEN f If), <- (LEN g Ig), C; auto).
    assert (C2 : (2 <= cnt (f_size f) L)%nat).
    { clear -If Ig NE SZ. unfold cnt.
      assert (A : In f (of_size (f_size f) L)) by (now apply of_size_in).
      assert (B : In g (of_size (f_size f) L)) by (now apply of_size_in).
      destruct (of_size (f_size f) L) as [|x [|y r]]; [destruct A| |cbn; lia].
      destruct A as [->|[]]. destruct B as [->|[]]. congruence. }
    destruct (size_complete json L (f_size f) X NC LEN C2) as (gs & E & G).
    destruct (G f g If Ig eq_refl (eq_sym SZ) NE C) as (grp & I & J). exists grp. split; auto.
    apply in_flat_map. exists (f_size f). split; [now apply Z|]. now rewrite E.
Qed.

Lemma run_text_complete c l : sizes_ok l -> collected c l <> [] ->
  exact_compare content compare (collected c l) -> no_collision content hash_of (collected c l) -> sized content (collected c l) ->
  exists gs, run_text hash_of junk compare qsort iter c l = (gs, SOk) /\ complete (collected c l) gs.
Proof.
  intros S NE X NC LEN. destruct (runs_ok hash_of junk compare qsort iter IT c l S NE) as (L & ss & P & Z & A & _).
  destruct (fold_complete false L ss Z (exact_perm _ _ P X) (nocol_perm _ _ P NC) (sized_perm _ _ P LEN)) as (gs & E & G).
  exists gs. split.
  - rewrite A, <- E. apply fold_text_eq.
  - intros f g If Ig. apply G; eapply Permutation_in; eauto.
Qed.

Lemma json_fold_text L ss gs :
  fold_sizes (fun s => report_array compare (cnt s L) (srt true L s)) ss = (gs, SOk) ->
  exists js, fold_sizes (fun s => json_size compare qsort (the_entry true L s)) ss = (js, SOk) /\ map jfiles js = gs.
Proof.
  intros H. apply fold_sizes_ok_inv in H as [A ->].
  eexists. split.
  - apply fold_sizes_ok. intros s I. apply A in I. rewrite json_size_eq.
    destruct (json_array_eq compare s (cnt s L) (srt true L s)) as [E F]. congruence.
  - clear -A. induction ss as [|s ss IH]; cbn [flat_map]; auto. rewrite map_app, IH.
    + f_equal. rewrite json_size_eq.
      destruct (json_array_eq compare s (cnt s L) (srt true L s)) as [E F]. apply F.
      apply A. now left.
    + intros s' I. apply A. now right.
Qed.

Lemma run_json_complete c l : sizes_ok l -> collected c l <> [] ->
  exact_compare content compare (collected c l) -> no_collision content hash_of (collected c l) -> sized content (collected c l) ->
  exists js, run_json hash_of junk compare qsort iter c l = (js, SOk) /\ complete (collected c l) (map jfiles js).
Proof.
  intros S NE X NC LEN. destruct (runs_ok hash_of junk compare qsort iter IT c l S NE) as (L & ss & P & Z & _ & A).
  destruct (fold_complete true L ss Z (exact_perm _ _ P X) (nocol_perm _ _ P NC) (sized_perm _ _ P LEN)) as (gs & E & G).
  destruct (json_fold_text L ss gs E) as (js & F & <-). exists js. split.
  - rewrite A, F. reflexivity.
  - intros f g If Ig. apply G; eapply Permutation_in; eauto.
Qed.

(** ** Text and JSON agree *)
Definition zero (k : chk) : chk := mkChk 0 (k_file k).
Lemma pairs_zero hv f r : (forall k, In k r -> k_hash k = hv) ->
  pairs compare 0 f (map zero r) =
  (let '(r', m, s) := pairs compare hv f r in (map zero r', m, s)).
Proof.
  induction r as [|k r IH]; intros H; cbn [pairs map]; auto.
  rewrite (H k) by (now left). change (k_hash (zero k)) with 0%N. change (k_file (zero k)) with (k_file k). rewrite !N.eqb_refl.
  destruct (k_file k) as [g|]; [|reflexivity]. destruct (compare f g).
  - reflexivity.
  - rewrite IH by (intros; apply H; now right). destruct (pairs compare hv f r) as [[r' m] s]. reflexivity.
  - rewrite IH by (intros; apply H; now right). destruct (pairs compare hv f r) as [[r' m] s]. reflexivity.
  - rewrite IH by (intros; apply H; now right). destruct (pairs compare hv f r) as [[r' m] s]. reflexivity.
Qed.
Lemma report_array_zero hv fuel : forall cells, (forall k, In k cells -> k_hash k = hv) ->
  report_array compare fuel (map zero cells) = report_array compare fuel cells.
Proof.
  induction fuel as [|fu IH]; intros [|k r] H; cbn [report_array map]; auto.
  change (k_hash (zero k)) with 0%N. change (k_file (zero k)) with (k_file k).
  destruct (k_file k) as [f|]; [|apply IH; intros; apply H; now right].
  rewrite (pairs_zero hv) by (intros; apply H; now right). rewrite (H k) by (now left).
  destruct (pairs compare hv f r) as [[r' m] s] eqn:P. destruct s; auto.
  rewrite IH; auto. intros x I. apply pairs_inv in P as (M & _).
  destruct (marked_in _ _ _ M I) as (y & Iy & My). rewrite <- (H y) by (now right).
  destruct My as [->|[]]; auto.
Qed.

Lemma size_agree L s : natural qsort -> exact_compare content compare L -> no_collision content hash_of L -> sized content L ->
  (2 <= cnt s L)%nat ->
  report_array compare (cnt s L) (srt false L s) = report_array compare (cnt s L) (srt true L s).
Proof.
  intros NT X NC LEN C. destruct (direct false L s) eqn:D.
  - assert (H0 : forall f, f_size f = s -> hv_of hash_of junk false L f = 0%N).
    { intros f <-. unfold hv_of. now rewrite D. }
    assert (CZ : map (cell false L) (of_size s L) = map zero (map (cell true L) (of_size s L))).
    { rewrite map_map. apply map_ext_in. intros f I. apply of_size_in in I as [_ I].
      unfold ReportProofs.cell, zero. cbn [k_file]. now rewrite H0. }
    destruct (separated_dec false L s NC LEN) as [SP|(_ & C2 & DF)].
    + destruct (separated_dec true L s NC LEN) as [SPJ|(? & _)]; [|discriminate].
      assert (EQ : forall f g, In f L -> In g L -> f_size f = s -> f_size g = s ->
        hv_of hash_of junk true L f = hv_of hash_of junk true L g).
      { intros f g If Ig Zf Zg. apply SPJ; auto. apply SP; auto. now rewrite !H0. }
      unfold srt at 1. rewrite CZ, NT.
      * fold (srt true L s). destruct (srt true L s) as [|k0 r0] eqn:SE; [reflexivity|].
        apply (report_array_zero (k_hash k0)). intros k I.
        assert (I0 : In k0 (srt true L s)) by (rewrite SE; now left).
        assert (I1 : In k (srt true L s)) by (now rewrite SE).
        apply srt_in in I0 as (f & -> & If & Zf). apply srt_in in I1 as (g & -> & Ig & Zg).
        cbn [k_hash ReportProofs.cell]. auto.
      * intros a b Ia Ib. apply in_map_iff in Ia as (f & <- & If). apply in_map_iff in Ib as (g & <- & Ig).
        apply of_size_in in If as [If Zf]. apply of_size_in in Ig as [Ig Zg].
        unfold chksum_cmp, zero, ReportProofs.cell. cbn [k_hash k_file].
        rewrite (EQ f g) by auto. now rewrite !N.ltb_irrefl.
    + destruct (cnt2 s L C2) as (f & g & E). specialize (DF f g E).
      assert (If : In f L /\ f_size f = s) by (apply of_size_in; rewrite E; now left).
      assert (Ig : In g L /\ f_size g = s) by (apply of_size_in; rewrite E; right; now left).
      destruct (size_complete false L s X NC LEN C) as (g1 & E1 & _).
      assert (R1 : report_array compare (cnt s L) (srt false L s) = ([], SOk)).
      { destruct If as [If Zf]. destruct Ig as [Ig Zg].
        assert (HV : hv_of hash_of junk false L f = hv_of hash_of junk false L g) by (now rewrite !H0).
        rewrite C2. destruct (two_sorted L false s f g E) as [-> | ->].
        - apply (two_cells_differ _ _ f g); [reflexivity|reflexivity|exact HV|]. apply X; auto. congruence.
        - apply (two_cells_differ _ _ g f); [reflexivity|reflexivity|symmetry; exact HV|]. apply X; auto. congruence. }
      rewrite R1. symmetry.
      destruct (separated_dec true L s NC LEN) as [SPJ|(? & _)]; [|discriminate].
      destruct If as [If Zf]. destruct Ig as [Ig Zg].
      assert (HN : hv_of hash_of junk true L f <> hv_of hash_of junk true L g).
      { intros Hh. apply DF. now apply SPJ. }
      rewrite C2. destruct (two_sorted L true s f g E) as [-> | ->].
      * apply (two_cells_apart _ _ f g); auto.
      * apply (two_cells_apart _ _ g f); auto.
  - f_equal. unfold srt. f_equal. apply map_ext_in. intros f I. apply of_size_in in I as [_ I].
    unfold ReportProofs.cell, hv_of. rewrite I, D. unfold direct. now rewrite andb_false_r.
Qed.

Lemma runs_agree c l : natural qsort -> sizes_ok l -> collected c l <> [] ->
  exact_compare content compare (collected c l) -> no_collision content hash_of (collected c l) -> sized content (collected c l) ->
  exists js, run_json hash_of junk compare qsort iter c l = (js, SOk) /\
    run_text hash_of junk compare qsort iter c l = (map jfiles js, SOk).
Proof.
  intros NT S NE X NC LEN. destruct (runs_ok hash_of junk compare qsort iter IT c l S NE) as (L & ss & P & Z & A & B).
  destruct (fold_complete true L ss Z (exact_perm _ _ P X) (nocol_perm _ _ P NC) (sized_perm _ _ P LEN)) as (gs & E & G).
  destruct (json_fold_text L ss gs E) as (js & F & <-). exists js. split.
  - rewrite B, F. reflexivity.
  - rewrite A, <- E. assert (K : forall s, In s ss -> (2 <= cnt s L)%nat) by (intros s I; now apply Z).
    rewrite fold_text_eq. clear A B Z E F G. induction ss as [|s ss IH]; cbn [fold_sizes]; auto.
    rewrite (size_agree L s NT (exact_perm _ _ P X) (nocol_perm _ _ P NC) (sized_perm _ _ P LEN)) by (apply K; now left).
    rewrite IH by (intros s' I; apply K; now right). reflexivity.
Qed.
End M.
