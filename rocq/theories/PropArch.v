(** Properties C91, C92 and C93: archive mode. *)
From Verif Require Import Util FileModel ArchModel.
Local Open Scope nat_scope.

(** ** Specification *)
(** [m] is the first member of the archive called [sub] *)
Definition first_match (sub : path) (hs : list header) (m : member) : Prop :=
  exists pre post, hs = pre ++ HEntry m :: post /\ m_name m = Some sub /\
    Forall (fun h => exists m' n, h = HEntry m' /\ m_name m' = Some n /\ n <> sub) pre.
(** what a job works on: the member its file stands for *)
Definition target (j : lib * afile) (m : member) : Prop :=
  exists sub, f_sub (snd j) = Some sub /\ first_match sub (l_headers (fst j)) m.
(** every member has a name *)
Definition named (j : lib * afile) : Prop := forall m, In (HEntry m) (l_headers (fst j)) -> m_name m <> None.
Definition no_dir (j : lib * afile) : Prop := forall m, target j m -> m_kind m <> KDir.

(** the byte at position [i] of a file written in blocks, the last block that covers it
    decides; the length of the file *)
Fixpoint byte_of (bs : list block) (i : nat) : option N :=
  match bs with
  | BData off d _ :: r =>
    match byte_of r i with Some x => Some x | None => if off <=? i then nth_error d (i - off) else None end
  | _ => None
  end.
Fixpoint size_of (bs : list block) : nat :=
  match bs with BData off d _ :: r => Nat.max (off + length d) (size_of r) | _ => 0 end.
(** [c] is the content of the member *)
Definition is_data (m : member) (c : bytes) : Prop :=
  length c = size_of (m_blocks m) /\
  forall i, i < length c -> nth_error c i = Some (match byte_of (m_blocks m) i with Some x => x | None => 0%N end).

(** mkstemp finds a name as long as at most [n] files exist beyond those of [w] *)
Definition room (w : world) (n : nat) (L : lib) : Prop :=
  forall w' l, length l <= n -> (forall p, exists_ w' p = true -> exists_ w p = true \/ In p l) ->
    exists t, l_temp L (exists_ w') = Some t /\ exists_ w' t = false.
(** nothing fails: the libraries answer without error, [m] is a regular file, a temporary
    name can be found *)
Definition works (w : world) (n : nat) (j : lib * afile) (m : member) : Prop :=
  let L := fst j in
  l_new L = true /\ l_filter L = true /\ l_format L = true /\ l_open L = true /\ l_disk L = true /\
  target j m /\ m_kind m = KFile /\ m_header m = true /\
  Forall (fun b => exists off d, b = BData off d true) (m_blocks m) /\
  room w n L.

(** ** Content of an extracted file *)
Fixpoint assemble (c : bytes) (bs : list block) : bytes :=
  match bs with BData off d _ :: r => assemble (write_at c off d) r | _ => c end.
Lemma write_at_length c off d : length (write_at c off d) = Nat.max (off + length d) (length c).
Proof.
  unfold write_at. rewrite !app_length, firstn_length, skipn_length, app_length, repeat_length. lia.
Qed.
Lemma nth_error_repeat {A} (x : A) : forall n i, i < n -> nth_error (repeat x n) i = Some x.
Proof. induction n as [|n IH]; intros [|i] H; cbn; try lia; auto. apply IH. lia. Qed.
Lemma nth_error_first {A} : forall n (l : list A) i, i < n -> nth_error (firstn n l) i = nth_error l i.
Proof. induction n as [|n IH]; intros [|x l] [|i] H; cbn; try lia; auto. apply IH. lia. Qed.
Lemma nth_error_skip {A} : forall n (l : list A) i, nth_error (skipn n l) i = nth_error l (n + i).
Proof. induction n as [|n IH]; intros [|x l] i; cbn; auto. destruct i; reflexivity. Qed.
Lemma write_at_nth c off d i : i < length (write_at c off d) -> nth_error (write_at c off d) i =
  match (if off <=? i then nth_error d (i - off) else None) with
  | Some x => Some x
  | None => match nth_error c i with Some x => Some x | None => Some 0%N end
  end.
Proof.
  intro H. rewrite write_at_length in H. unfold write_at.
  assert (Lf : length (firstn off (c ++ repeat 0%N (off - length c))) = off).
  { rewrite firstn_length, app_length, repeat_length. lia. }
  destruct (Nat.leb_spec off i) as [Le|Lt].
  - rewrite nth_error_app2 by lia. rewrite Lf. destruct (Nat.ltb_spec (i - off) (length d)) as [Hd|Hd].
    + rewrite nth_error_app1 by exact Hd. destruct (nth_error d (i - off)) eqn:E; [reflexivity|]. apply nth_error_None in E. lia.
    + rewrite nth_error_app2 by exact Hd. rewrite nth_error_skip. replace (off + length d + (i - off - length d)) with i by lia.
      replace (nth_error d (i - off)) with (@None N) by (symmetry; apply nth_error_None; lia).
      destruct (nth_error c i) eqn:E; [reflexivity|]. apply nth_error_None in E. lia.
  - rewrite nth_error_app1 by lia. rewrite nth_error_first by exact Lt. destruct (nth_error c i) eqn:E.
    + rewrite nth_error_app1 by (apply nth_error_Some; congruence). exact E.
    + apply nth_error_None in E. rewrite nth_error_app2 by exact E. apply nth_error_repeat. lia.
Qed.
Lemma assemble_spec : forall bs c, length (assemble c bs) = Nat.max (length c) (size_of bs) /\
  forall i, i < length (assemble c bs) -> nth_error (assemble c bs) i =
    match byte_of bs i with Some x => Some x | None => match nth_error c i with Some x => Some x | None => Some 0%N end end.
Proof.
  induction bs as [|[off d ok|] r IH]; intro c; cbn [assemble size_of byte_of].
  - split; [lia|]. intros i Hi. destruct (nth_error c i) eqn:E; [reflexivity|]. apply nth_error_None in E. lia.
  - destruct (IH (write_at c off d)) as (A & B). split; [rewrite A, write_at_length; lia|].
    intros i Hi. rewrite (B i Hi). destruct (byte_of r i); [reflexivity|].
    destruct (Nat.ltb_spec i (length (write_at c off d))) as [H|H].
    + rewrite (write_at_nth c off d i H).
      destruct (if off <=? i then nth_error d (i - off) else None); [reflexivity|]. destruct (nth_error c i); reflexivity.
    + assert (Q : nth_error (write_at c off d) i = None) by (apply nth_error_None; exact H). rewrite Q.
      rewrite write_at_length in H.
      replace (if off <=? i then nth_error d (i - off) else None) with (@None N).
      * replace (nth_error c i) with (@None N); [reflexivity|]. symmetry. apply nth_error_None. lia.
      * destruct (off <=? i); [|reflexivity]. symmetry. apply nth_error_None. lia.
  - split; [lia|]. intros i Hi. destruct (nth_error c i) eqn:E; [reflexivity|]. apply nth_error_None in E. lia.
Qed.
Lemma assemble_data m : is_data m (assemble [] (m_blocks m)).
Proof.
  destruct (assemble_spec (m_blocks m) []) as (A & B). split; [exact A|]. intros i Hi. rewrite (B i Hi).
  destruct (byte_of _ i); [reflexivity|]. destruct i; reflexivity.
Qed.
Lemma nth_error_ext {A} : forall l l' : list A, length l = length l' -> (forall i, i < length l -> nth_error l i = nth_error l' i) -> l = l'.
Proof.
  induction l as [|x l IH]; intros [|y l'] L H; cbn in *; try lia; auto. f_equal.
  - specialize (H 0 ltac:(lia)). cbn in H. congruence.
  - apply IH; [lia|]. intros i Hi. apply (H (S i)). lia.
Qed.
(** the content is determined by the specification *)
Lemma is_data_unique m c c' : is_data m c -> is_data m c' -> c = c'.
Proof.
  intros (A & B) (A' & B'). apply nth_error_ext; [congruence|]. intros i Hi. rewrite B by exact Hi. rewrite B' by congruence. reflexivity.
Qed.

(** ** Steps *)
Lemma find_first sub : forall hs m, find_member sub hs = Found m -> first_match sub hs m.
Proof.
  induction hs as [|[m0|] r IH]; intros m H; cbn [find_member] in H; try discriminate.
  destruct (m_name m0) as [n|] eqn:E; [|discriminate]. destruct (path_dec sub n) as [<-|Ne].
  - injection H as <-. exists [], r. auto.
  - destruct (IH m H) as (pre & post & -> & A & B). exists (HEntry m0 :: pre), post. split; [reflexivity|]. split; [exact A|].
    constructor; [|exact B]. exists m0, n. auto.
Qed.
Lemma find_unique sub hs m : first_match sub hs m -> find_member sub hs = Found m.
Proof.
  intros (pre & post & -> & A & F). induction F as [|h pre (m' & n & -> & E & Ne) F IH]; cbn [app find_member].
  - rewrite A. destruct (path_dec sub sub); congruence.
  - rewrite E. destruct (path_dec sub n); [congruence|exact IH].
Qed.
Lemma first_unique sub hs m m' : first_match sub hs m -> first_match sub hs m' -> m = m'.
Proof. intros A B. apply find_unique in A. apply find_unique in B. congruence. Qed.
Lemma target_unique j m m' : target j m -> target j m' -> m = m'.
Proof. intros (s & A & B) (s' & A' & B'). assert (s = s') as <- by congruence. eapply first_unique; eauto. Qed.
Lemma find_named sub : forall hs, (forall m, In (HEntry m) hs -> m_name m <> None) -> find_member sub hs <> NullName.
Proof.
  induction hs as [|[m0|] r IH]; intros H; cbn [find_member]; try discriminate.
  destruct (m_name m0) as [n|] eqn:E; [|destruct (H m0 (or_introl eq_refl) E)]. destruct (path_dec sub n); [discriminate|].
  apply IH. intros m I. apply H. right. exact I.
Qed.
Ltac splits := repeat match goal with |- _ /\ _ => split end.
Lemma open_spec L sub w r w1 : open_and_find L sub w = (r, w1) -> w_fs w1 = w_fs w /\ w_umask w1 = w_umask w /\
  (forall m, r = Found m -> first_match sub (l_headers L) m /\ w_handles w1 = w_handles w + 2) /\
  ((forall m, In (HEntry m) (l_headers L) -> m_name m <> None) -> r <> NullName).
Proof.
  unfold open_and_find. intro H. destruct (negb (l_new L)); [injection H as <- <-; splits; auto; discriminate|].
  destruct (negb (l_filter L && l_format L && l_open L)); [injection H as <- <-; splits; auto; discriminate|].
  destruct (negb (l_disk L)); injection H as <- <-; splits; auto; try discriminate.
  - intros m E. split; [apply find_first; exact E|reflexivity].
  - apply find_named.
Qed.
Lemma open_works L sub w m : l_new L = true -> l_filter L = true -> l_format L = true -> l_open L = true -> l_disk L = true ->
  first_match sub (l_headers L) m -> exists w1, open_and_find L sub w = (Found m, w1).
Proof.
  intros A1 A2 A3 A4 A5 F. unfold open_and_find. rewrite A1, A2, A3, A4, A5, (find_unique _ _ _ F). cbn. eauto.
Qed.
Lemma set_same w p n : w_fs (set_node w p n) p = n.
Proof. cbn. destruct (path_dec p p); congruence. Qed.
Lemma set_other w p n q : q <> p -> w_fs (set_node w p n) q = w_fs w q.
Proof. intro H. cbn. destruct (path_dec p q); congruence. Qed.
Lemma remove_other w p q : q <> p -> w_fs (remove w p) q = w_fs w q.
Proof. intro H. unfold remove. destruct (w_fs w p); auto; apply set_other; exact H. Qed.
Lemma remove_mask w p : w_umask (remove w p) = w_umask w /\ w_handles (remove w p) = w_handles w.
Proof. unfold remove. destruct (w_fs w p); auto. Qed.

Lemma copy_spec t : forall bs w ok w', copy_data bs t w = (ok, w') ->
  (forall q, q <> t -> w_fs w' q = w_fs w q) /\ w_umask w' = w_umask w /\ w_handles w' = w_handles w /\
  match w_fs w t with
  | File c => (exists c', w_fs w' t = File c') /\ (ok = true -> w_fs w' t = File (assemble c bs)) /\
              (Forall (fun b => exists off d, b = BData off d true) bs -> ok = true)
  | n => w_fs w' t = n
  end.
Proof.
  induction bs as [|[off d k|] r IH]; intros w ok w' H; cbn [copy_data] in H.
  - injection H as <- <-. splits; auto. destruct (w_fs w t) eqn:E; auto. splits; eauto.
  - destruct (w_fs w t) as [|c|q|] eqn:E; [injection H as <- <-; rewrite E; auto| |injection H as <- <-; rewrite E; auto..].
    destruct k.
    + destruct (IH _ _ _ H) as (A & M & Hn & B). rewrite set_same in B. destruct B as (B1 & B2 & B3). splits; auto.
      * intros q Hq. rewrite (A q Hq). apply set_other. exact Hq.
      * intro F. apply B3. inversion F; subst; assumption.
    + injection H as <- <-. splits; eauto; try discriminate. intro F. inversion F as [|? ? (o & d' & X) ?]; subst. discriminate.
  - injection H as <- <-. splits; auto. destruct (w_fs w t) eqn:E; auto. splits; eauto; try discriminate.
    intro F. inversion F as [|? ? (o & d' & X) ?]; subst. discriminate.
Qed.
(** what the temporary file is when extraction has succeeded *)
Definition ready (m : member) (n : node) : Prop :=
  match m_kind m with KFile => n = File (assemble [] (m_blocks m)) | KLink q => n = Link q | KDir => n = Dir end.
Lemma extract_spec m t w ok w' c : w_fs w t = File c -> extract m t w = (ok, w') ->
  (forall q, q <> t -> w_fs w' q = w_fs w q) /\ w_umask w' = w_umask w /\ w_handles w' = w_handles w /\
  (ok = true -> ready m (w_fs w' t)) /\
  (ok = false -> w_fs w' t = Absent \/ (m_kind m = KDir /\ w_fs w' t = Dir)) /\
  (m_kind m = KFile -> m_header m = true -> Forall (fun b => exists off d, b = BData off d true) (m_blocks m) -> ok = true).
Proof.
  intros Hc H. unfold extract in H. destruct (m_header m).
  - destruct (copy_data (m_blocks m) t (write_header m t w)) as [k w1] eqn:E. destruct (copy_spec _ _ _ _ _ E) as (A & M & Hn & B).
    unfold write_header in A, M, Hn, B. rewrite set_same in B. unfold ready.
    assert (A' : forall q, q <> t -> w_fs w1 q = w_fs w q).
    { intros q Hq. rewrite (A q Hq). apply set_other. exact Hq. }
    destruct k; injection H as <- <-.
    + splits; auto; try discriminate. intros _. destruct (m_kind m); [apply B; reflexivity|exact B..].
    + destruct (remove_mask w1 t) as (R1 & R2). splits; try congruence.
      * intros q Hq. rewrite remove_other by exact Hq. auto.
      * rewrite R1. exact M.
      * rewrite R2. exact Hn.
      * intros _. destruct (m_kind m).
        -- destruct B as ((c' & B) & _). left. unfold remove. rewrite B. apply set_same.
        -- left. unfold remove. rewrite B. apply set_same.
        -- right. split; [reflexivity|]. unfold remove. rewrite B. exact B.
      * intros K _ F. rewrite K in B. destruct B as (_ & _ & B). auto.
  - injection H as <- <-. destruct (remove_mask w t) as (R1 & R2). splits; try congruence.
    + intros q Hq. apply remove_other. exact Hq.
    + intros _. left. unfold remove. rewrite Hc. apply set_same.
Qed.
Lemma mkstemp_spec L w t w1 : mkstemp L w = Some (t, w1) -> w_fs w t = Absent /\ w1 = set_node w t (File []).
Proof.
  unfold mkstemp. destruct (l_temp L (exists_ w)) as [x|]; [|discriminate]. unfold exists_ at 1. destruct (w_fs w x) eqn:E; try discriminate.
  intros [= <- <-]. auto.
Qed.

(** ** Any interleaving *)
Section Inter.
Context {X : Type}.
Variable chk : option bytes -> X.
Variable jobs : list (lib * afile).
Variable w0 : world.

Definition temp_of (c : pc X) : option path :=
  match c with PMade _ t _ | PTemp t _ | PReady t | PSummed t _ => Some t | _ => None end.
Definition early (c : pc X) : bool := match c with PStart | PMasked _ _ => true | _ => false end.
(** what is known of the thread of job [j]; only its own temporary file matters *)
Definition good (w : world) (j : lib * afile) (c : pc X) : Prop :=
  match c with
  | PStart => True
  | PMasked _ m => target j m
  | PMade _ t m | PTemp t m => target j m /\ w_fs w t = File []
  | PReady t => exists m, target j m /\ ready m (w_fs w t)
  | PSummed t x => exists m, target j m /\ ready m (w_fs w t) /\ (m_kind m = KFile -> x = chk (Some (assemble [] (m_blocks m))))
  | PDone r =>
    (named j -> r <> RUndef) /\
    (forall m, works w0 (length jobs) j m -> r = RSum (chk (Some (assemble [] (m_blocks m))))) /\
    match f_sub (snd j) with
    | None => forall c, w_fs w0 (f_path (snd j)) = File c -> r = RSum (chk (Some c))
    | Some _ => forall x, r = RSum x -> exists m, target j m /\ (m_kind m = KFile -> x = chk (Some (assemble [] (m_blocks m))))
    end
  end.
Definition dirjob : Prop := exists j m, In j jobs /\ target j m /\ m_kind m = KDir.
Record inv (cs : list (pc X)) (w : world) : Prop := {
  i_len : length cs = length jobs;
  i_fresh : forall i c t, nth_error cs i = Some c -> temp_of c = Some t -> w_fs w0 t = Absent;
  i_apart : forall i k c c' t, nth_error cs i = Some c -> nth_error cs k = Some c' -> temp_of c = Some t -> temp_of c' = Some t -> i = k;
  i_rest : forall p, (forall i c, nth_error cs i = Some c -> temp_of c <> Some p) ->
      w_fs w p = w_fs w0 p \/ (w_fs w0 p = Absent /\ w_fs w p = Dir /\ dirjob);
  i_good : forall i j c, nth_error jobs i = Some j -> nth_error cs i = Some c -> good w j c;
  (* each thread has made at most one file *)
  i_room : exists own, length own = length jobs /\
      (forall p, w_fs w p <> Absent -> w_fs w0 p <> Absent \/ In (Some p) own) /\
      forall i c, nth_error cs i = Some c -> early c = true -> nth_error own i = Some None }.

Lemma good_exists w j c t : good w j c -> temp_of c = Some t -> w_fs w t <> Absent.
Proof.
  destruct c; cbn [good temp_of]; intros G E; try discriminate; injection E as <-.
  - destruct G as (_ & ->). discriminate.
  - destruct G as (_ & ->). discriminate.
  - destruct G as (m & _ & R). unfold ready in R. destruct (m_kind m); rewrite R; discriminate.
  - destruct G as (m & _ & R & _). unfold ready in R. destruct (m_kind m); rewrite R; discriminate.
Qed.
Lemma good_same w w' j c : (forall t, temp_of c = Some t -> w_fs w' t = w_fs w t) -> good w j c -> good w' j c.
Proof.
  destruct c; cbn [good temp_of]; intros E G; auto; rewrite (E _ eq_refl); exact G.
Qed.

(** thread [i] goes on to [c'], changing no file but its own temporary one *)
Lemma inv_step cs w i j c c' w' : inv cs w -> nth_error jobs i = Some j -> nth_error cs i = Some c ->
  (forall q, temp_of c <> Some q -> temp_of c' <> Some q -> w_fs w' q = w_fs w q) ->
  (forall t, temp_of c' = Some t -> temp_of c = Some t \/ (temp_of c = None /\ w_fs w t = Absent)) ->
  (forall t, temp_of c = Some t -> temp_of c' = None -> w_fs w' t = Absent \/ (w_fs w' t = Dir /\ dirjob)) ->
  (early c' = true -> early c = true) -> (temp_of c = None -> temp_of c' <> None -> early c = true /\ early c' = false) ->
  good w' j c' -> inv (upd cs i c') w'.
Proof.
  intros I Hj Hc Ho Hn Hx He1 He2 G. pose proof (nth_error_Some_lt _ _ _ Hc) as Li.
  assert (U : forall k, nth_error (upd cs i c') k = if Nat.eq_dec i k then Some c' else nth_error cs k).
  { intro k. destruct (Nat.eq_dec i k) as [<-|Ne]; [apply nth_error_upd_eq; exact Li|apply nth_error_upd_neq; exact Ne]. }
  assert (Gi := i_good _ _ I i j c Hj Hc).
  assert (Fr : forall t k ck, temp_of c' = Some t -> i <> k -> nth_error cs k = Some ck -> temp_of ck <> Some t).
  { intros t k ck T Ne Hk Tk. destruct (Hn t T) as [Y|(_ & Y)].
    - apply Ne. exact (i_apart _ _ I i k c ck t Hc Hk Y Tk).
    - destruct (nth_error jobs k) as [jk|] eqn:Jk.
      + exact (good_exists w jk ck t (i_good _ _ I k jk ck Jk Hk) Tk Y).
      + apply nth_error_None in Jk. apply nth_error_Some_lt in Hk. rewrite (i_len _ _ I) in Hk. lia. }
  constructor.
  - rewrite length_upd. apply I.
  - intros k ck t Hk T. rewrite U in Hk. destruct (Nat.eq_dec i k) as [<-|Ne].
    + injection Hk as <-. destruct (Hn t T) as [Y|(Y0 & Y)]; [exact (i_fresh _ _ I i c t Hc Y)|].
      destruct (i_rest _ _ I t) as [Z|(Z & _)]; [|congruence|exact Z].
      intros k ck Hk Tk. destruct (Nat.eq_dec i k) as [<-|Ne]; [congruence|]. exact (Fr t k ck T Ne Hk Tk).
    + exact (i_fresh _ _ I k ck t Hk T).
  - intros k1 k2 c1 c2 t H1 H2 T1 T2. rewrite U in H1, H2. destruct (Nat.eq_dec i k1) as [<-|N1]; destruct (Nat.eq_dec i k2) as [<-|N2]; auto.
    + injection H1 as <-. exfalso. exact (Fr t k2 c2 T1 N2 H2 T2).
    + injection H2 as <-. exfalso. exact (Fr t k1 c1 T2 N1 H1 T1).
    + exact (i_apart _ _ I k1 k2 c1 c2 t H1 H2 T1 T2).
  - intros p Hp. assert (Hp' : temp_of c' <> Some p).
    { apply (Hp i). rewrite U. destruct (Nat.eq_dec i i); congruence. }
    assert (Hk : forall k ck, i <> k -> nth_error cs k = Some ck -> temp_of ck <> Some p).
    { intros k ck Ne Hk. apply (Hp k). rewrite U. destruct (Nat.eq_dec i k); congruence. }
    destruct (temp_of c) as [t|] eqn:T.
    + destruct (path_dec t p) as [->|Ne].
      * destruct (temp_of c') as [t'|] eqn:T'.
        -- destruct (Hn t' eq_refl) as [Y|(Y & _)]; congruence.
        -- rewrite (i_fresh _ _ I i c p Hc T). destruct (Hx p eq_refl eq_refl) as [Y|(Y & D)]; auto.
      * rewrite Ho by congruence. apply (i_rest _ _ I). intros k ck Hk'. destruct (Nat.eq_dec i k) as [<-|N]; [congruence|]. exact (Hk k ck N Hk').
    + rewrite Ho by congruence. apply (i_rest _ _ I). intros k ck Hk'. destruct (Nat.eq_dec i k) as [<-|N]; [congruence|]. exact (Hk k ck N Hk').
  - intros k jk ck Hjk Hk. rewrite U in Hk. destruct (Nat.eq_dec i k) as [<-|Ne].
    + injection Hk as <-. assert (jk = j) as -> by congruence. exact G.
    + apply (good_same w); [|exact (i_good _ _ I k jk ck Hjk Hk)]. intros t T. apply Ho.
      * intro Y. apply Ne. exact (i_apart _ _ I i k c ck t Hc Hk Y T).
      * intro Y. exact (Fr t k ck Y Ne Hk T).
  - destruct (i_room _ _ I) as (own & O1 & O2 & O3). assert (Lo : i < length own) by (rewrite O1, <- (i_len _ _ I); exact Li).
    assert (Old : forall p, temp_of c = Some p -> In (Some p) own).
    { intros p T. destruct (O2 p) as [Y|Y]; [exact (good_exists w j c p Gi T)| |exact Y].
      rewrite (i_fresh _ _ I i c p Hc T) in Y. congruence. }
    destruct (temp_of c) as [t|] eqn:T; [|destruct (temp_of c') as [t'|] eqn:T'].
    + exists own. split; [exact O1|]. split.
      * intros p Hp. destruct (path_dec p t) as [->|Ne]; [right; auto|]. apply O2. rewrite <- Ho; [exact Hp|congruence|].
        intro T'. destruct (Hn p T') as [Y|(Y & _)]; congruence.
      * intros k ck Hk Ek. rewrite U in Hk. destruct (Nat.eq_dec i k) as [<-|Ne]; [injection Hk as <-; eauto|eauto].
    + destruct (He2 eq_refl ltac:(discriminate)) as (E1 & E2). pose proof (O3 i c Hc E1) as Oi.
      exists (upd own i (Some t')). split; [rewrite length_upd; exact O1|]. split.
      * intros p Hp. destruct (path_dec p t') as [->|Ne].
        -- right. eapply nth_error_In. apply nth_error_upd_eq. exact Lo.
        -- destruct (O2 p) as [Y|Y]; [rewrite <- Ho by congruence; exact Hp|auto|]. right.
           apply In_nth_error in Y. destruct Y as (k & Y). apply (nth_error_In _ k). rewrite nth_error_upd_neq; [exact Y|]. intros ->. congruence.
      * intros k ck Hk Ek. rewrite U in Hk. destruct (Nat.eq_dec i k) as [<-|Ne]; [injection Hk as <-; congruence|].
        rewrite nth_error_upd_neq by exact Ne. eauto.
    + exists own. split; [exact O1|]. split.
      * intros p Hp. apply O2. rewrite <- Ho by congruence. exact Hp.
      * intros k ck Hk Ek. rewrite U in Hk. destruct (Nat.eq_dec i k) as [<-|Ne]; [injection Hk as <-; eauto|eauto].
Qed.
Lemma somes (own : list (option path)) p : In (Some p) own -> In p (flat_map (fun o => match o with Some x => [x] | None => [] end) own).
Proof. intro H. apply in_flat_map. exists (Some p). cbn. auto. Qed.
Lemma somes_length (own : list (option path)) : length (flat_map (fun o => match o with Some x => [x] | None => [] end) own) <= length own.
Proof. induction own as [|[x|] own IH]; cbn [flat_map app length]; lia. Qed.
Lemma inv_room cs w L : inv cs w -> room w0 (length jobs) L -> exists t, l_temp L (exists_ w) = Some t /\ exists_ w t = false.
Proof.
  intros I R. destruct (i_room _ _ I) as (own & O1 & O2 & _).
  apply (R w (flat_map (fun o => match o with Some x => [x] | None => [] end) own)).
  - rewrite <- O1. apply somes_length.
  - intros p Hp. destruct (O2 p) as [Y|Y].
    + unfold exists_ in Hp. destruct (w_fs w p); congruence.
    + left. unfold exists_. destruct (w_fs w0 p); congruence.
    + right. apply somes. exact Y.
Qed.

Lemma work_inv cs w i L f c c' w' : inv cs w -> nth_error jobs i = Some (L, f) -> nth_error cs i = Some c ->
  work_step chk L f c w = (c', w') -> inv (upd cs i c') w'.
Proof.
  intros I Hj Hc H. pose proof (i_good _ _ I i _ c Hj Hc) as G. set (j := (L, f)) in *.
  destruct c as [|old m|old t m|t m|t|t x|r]; cbn [work_step] in H.
  - destruct (f_sub f) as [sub|] eqn:S.
    + destruct (open_and_find L sub w) as [r w1] eqn:O. destruct (open_spec _ _ _ _ _ O) as (F & M & Fd & Nm).
      assert (Wk : forall m, works w0 (length jobs) j m -> r = Found m).
      { intros m (A1 & A2 & A3 & A4 & A5 & (s & B1 & B2) & _). cbn [j fst snd] in *. assert (s = sub) as -> by congruence.
        destruct (open_works L sub w m A1 A2 A3 A4 A5 B2) as (w2 & Y). congruence. }
      assert (Bad : r <> NullName -> forall m, r <> Found m -> True) by auto.
      destruct r as [m| | |]; injection H as <- <-.
      * eapply inv_step; [exact I|exact Hj|exact Hc| | | |cbn [early]; auto; discriminate|cbn [temp_of early]; intros; split; congruence|]; cbn [temp_of]; try discriminate; try (intros; reflexivity).
        -- intros q _ _. cbn. rewrite F. reflexivity.
        -- cbn [good]. exists sub. split; [exact S|apply Fd; reflexivity].
      * eapply inv_step; [exact I|exact Hj|exact Hc| | | |cbn [early]; auto; discriminate|cbn [temp_of early]; intros; split; congruence|]; cbn [temp_of]; try discriminate; try (intros; reflexivity).
        -- intros q _ _. rewrite F. reflexivity.
        -- cbn [good]. splits; try discriminate. { intros m Y. discriminate (Wk m Y). } cbn [j snd]. rewrite S. discriminate.
      * eapply inv_step; [exact I|exact Hj|exact Hc| | | |cbn [early]; auto; discriminate|cbn [temp_of early]; intros; split; congruence|]; cbn [temp_of]; try discriminate; try (intros; reflexivity).
        -- intros q _ _. rewrite F. reflexivity.
        -- cbn [good]. splits; try discriminate. { intros m Y. discriminate (Wk m Y). } cbn [j snd]. rewrite S. discriminate.
      * eapply inv_step; [exact I|exact Hj|exact Hc| | | |cbn [early]; auto; discriminate|cbn [temp_of early]; intros; split; congruence|]; cbn [temp_of]; try discriminate; try (intros; reflexivity).
        -- intros q _ _. rewrite F. reflexivity.
        -- cbn [good]. splits. { intros Y. destruct (Nm Y eq_refl). } { intros m Y. discriminate (Wk m Y). } cbn [j snd]. rewrite S. discriminate.
    + injection H as <- <-. eapply inv_step; [exact I|exact Hj|exact Hc| | | |cbn [early]; auto; discriminate|cbn [temp_of early]; intros; split; congruence|]; cbn [temp_of]; try discriminate; try (intros; reflexivity).
      cbn [good]. splits; try discriminate.
      { intros m (_ & _ & _ & _ & _ & (s & Y & _) & _). cbn [j snd] in Y. congruence. }
      cbn [j snd]. rewrite S. intros c Hf. unfold contents.
      destruct (i_rest _ _ I (f_path f)) as [Z|(Z & _)]; [|rewrite Z, Hf; reflexivity|congruence].
      intros k ck Hk T. pose proof (i_fresh _ _ I k ck _ Hk T). congruence.
  - cbn [good] in G. destruct (mkstemp L w) as [(t, w1)|] eqn:Mk; injection H as <- <-.
    + destruct (mkstemp_spec _ _ _ _ Mk) as (Ab & ->). eapply inv_step; [exact I|exact Hj|exact Hc| | | |cbn [early]; auto; discriminate|cbn [temp_of early]; intros; split; congruence|]; cbn [temp_of]; try discriminate; try (intros; reflexivity).
      * intros q _ Hq. apply set_other. congruence.
      * intros t' [= <-]. auto.
      * cbn [good]. split; [exact G|apply set_same].
    + eapply inv_step; [exact I|exact Hj|exact Hc| | | |cbn [early]; auto; discriminate|cbn [temp_of early]; intros; split; congruence|]; cbn [temp_of]; try discriminate; try (intros; reflexivity). cbn [good]. splits; try discriminate.
      { intros m' (_ & _ & _ & _ & _ & _ & _ & _ & _ & Y). exfalso. destruct (inv_room cs w L I Y) as (t & Y1 & Y2).
        unfold mkstemp in Mk. rewrite Y1, Y2 in Mk. discriminate. }
      destruct (f_sub (snd j)) eqn:S; [discriminate|]. destruct G as (s & Y & _). congruence.
  - injection H as <- <-. cbn [good] in G. eapply inv_step; [exact I|exact Hj|exact Hc| | | |cbn [early]; auto; discriminate|cbn [temp_of early]; intros; split; congruence|]; cbn [temp_of]; try discriminate; try (intros; reflexivity).
    + intros t' [= <-]. auto.
    + exact G.
  - cbn [good] in G. destruct G as (Tm & Hf). destruct (extract m t w) as [ok w1] eqn:Ex.
    destruct (extract_spec _ _ _ _ _ _ Hf Ex) as (A & _ & _ & B & C & D). destruct ok; injection H as <- <-.
    + eapply inv_step; [exact I|exact Hj|exact Hc| | | |cbn [early]; auto; discriminate|cbn [temp_of early]; intros; split; congruence|]; cbn [temp_of]; try discriminate; try (intros; reflexivity).
      * intros q Hq _. cbn. apply A. congruence.
      * intros t' [= <-]. auto.
      * cbn [good]. exists m. split; [exact Tm|apply B; reflexivity].
    + eapply inv_step; [exact I|exact Hj|exact Hc| | | |cbn [early]; auto; discriminate|cbn [temp_of early]; intros; split; congruence|]; cbn [temp_of]; try discriminate; try (intros; reflexivity).
      * intros q Hq _. apply A. congruence.
      * intros t' [= <-] _. destruct (C eq_refl) as [Y|(K & Y)]; auto. right. split; [exact Y|]. exists j, m. split; [|auto].
        eapply nth_error_In; eauto.
      * cbn [good]. splits; try discriminate.
        { intros m' (_ & _ & _ & _ & _ & T' & K & Hd & F & _). assert (m' = m) as -> by (eapply target_unique; eauto).
          discriminate (D K Hd F). }
        destruct (f_sub (snd j)) eqn:S; [discriminate|]. destruct Tm as (s & Y & _). congruence.
  - cbn [good] in G. destruct G as (m & Tm & R). injection H as <- <-. eapply inv_step; [exact I|exact Hj|exact Hc| | | |cbn [early]; auto; discriminate|cbn [temp_of early]; intros; split; congruence|]; cbn [temp_of]; try discriminate; try (intros; reflexivity).
    + intros t' [= <-]. auto.
    + cbn [good]. exists m. split; [exact Tm|]. split; [exact R|]. intro K. unfold ready in R. rewrite K in R. unfold contents. rewrite R. reflexivity.
  - cbn [good] in G. destruct G as (m & Tm & R & Sx). injection H as <- <-. eapply inv_step; [exact I|exact Hj|exact Hc| | | |cbn [early]; auto; discriminate|cbn [temp_of early]; intros; split; congruence|]; cbn [temp_of]; try discriminate; try (intros; reflexivity).
    + intros q Hq _. apply remove_other. congruence.
    + intros t' [= <-] _. unfold remove, ready in *. destruct (m_kind m) eqn:K; rewrite R.
      * left. apply set_same.
      * left. apply set_same.
      * right. split; [exact R|]. exists j, m. split; [eapply nth_error_In; eauto|auto].
    + cbn [good]. splits; try discriminate.
      { intros m' (_ & _ & _ & _ & _ & T' & K & _). assert (m' = m) as -> by (eapply target_unique; eauto). rewrite (Sx K). reflexivity. }
      destruct (f_sub (snd j)) eqn:S; [|destruct Tm as (s & Y & _); congruence]. intros y [= <-]. exists m. auto.
  - injection H as <- <-. eapply inv_step; [exact I|exact Hj|exact Hc| | | |cbn [early]; auto; discriminate|cbn [temp_of early]; intros; split; congruence|]; cbn [temp_of]; try discriminate; try (intros; reflexivity). exact G.
Qed.
Lemma run_inv : forall s cs w cs' w', inv cs w -> work chk jobs s cs w = (cs', w') -> inv cs' w'.
Proof.
  induction s as [|i s IH]; intros cs w cs' w' I H; cbn [work] in H; [injection H as <- <-; exact I|].
  destruct (nth_error jobs i) as [(L, f)|] eqn:J; [|eauto]. destruct (nth_error cs i) as [c|] eqn:C; [|eauto].
  destruct (work_step chk L f c w) as [c' w1] eqn:St. eapply IH; [|exact H]. eapply work_inv; eauto.
Qed.
Lemma start_inv : inv (map (fun _ => PStart) jobs) w0.
Proof.
  assert (S : forall i c, nth_error (map (fun _ => @PStart X) jobs) i = Some c -> c = PStart).
  { intros i c H. apply nth_error_In in H. apply in_map_iff in H. destruct H as (j & <- & _). reflexivity. }
  constructor.
  - apply map_length.
  - intros i c t H T. rewrite (S i c H) in T. discriminate.
  - intros i k c c' t H _ T. rewrite (S i c H) in T. discriminate.
  - auto.
  - intros i j c _ H. rewrite (S i c H). exact I.
  - exists (map (fun _ => None) jobs). split; [apply map_length|]. split; [auto|]. intros i c H _.
    rewrite nth_error_map in *. destruct (nth_error jobs i); [reflexivity|discriminate].
Qed.
End Inter.

(** the steps of one thread alone are the callback *)
Theorem solo_run : forall X (chk : option bytes -> X) L f w,
  work chk [(L, f)] (repeat 0 7) [PStart] w = ([PDone (fst (hash_task chk L f w))], snd (hash_task chk L f w)).
Proof.
  intros X chk L f w.
  assert (D : forall r w' n, work chk [(L, f)] (repeat 0 n) [PDone r] w' = ([PDone r], w')).
  { intros r w' n. induction n as [|n IH]; [reflexivity|]. cbn [repeat work nth_error work_step upd]. exact IH. }
  unfold hash_task. change (repeat 0 7) with (0 :: repeat 0 6). cbn [work nth_error work_step].
  destruct (f_sub f) as [sub|]; [|cbn [upd]; apply D]. unfold untar.
  destruct (open_and_find L sub w) as [[m| | |] w1]; cbn [upd]; try apply D.
  change (repeat 0 6) with (0 :: repeat 0 5). cbn [work nth_error work_step].
  destruct (mkstemp L (set_mask w1 PRIVATE)) as [(t, w2)|]; cbn [upd]; [|apply D].
  change (repeat 0 5) with (0 :: repeat 0 4). cbn [work nth_error work_step upd].
  change (repeat 0 4) with (0 :: repeat 0 3). cbn [work nth_error work_step].
  destruct (extract m t (set_mask w2 (w_umask w1))) as [[] w3]; cbn [upd]; [|apply D].
  reflexivity.
Qed.
Print Assumptions solo_run.

(** ** Extraction by one thread *)
Lemma untar_spec L f sub w r w1 : f_sub f = Some sub -> untar L sub w = (r, w1) ->
  (named (L, f) -> r <> UUndef) /\
  match r with
  | UPath t => w_fs w t = Absent /\ (forall q, q <> t -> w_fs w1 q = w_fs w q) /\ w_umask w1 = w_umask w /\ w_handles w1 = w_handles w /\
               exists m, target (L, f) m /\ ready m (w_fs w1 t)
  | UNull => (forall p, w_fs w1 p = w_fs w p \/ (w_fs w p = Absent /\ w_fs w1 p = Dir /\ exists m, target (L, f) m /\ m_kind m = KDir)) /\
             (forall n m, ~ works w n (L, f) m)
  | UUndef => forall p, w_fs w1 p = w_fs w p
  end /\ (room w 0 L -> w_umask w1 = w_umask w).
Proof.
  intros Sf H. unfold untar in H. destruct (open_and_find L sub w) as [x w2] eqn:O. destruct (open_spec _ _ _ _ _ O) as (F & M & Fd & Nm).
  assert (Wk : forall n m, works w n (L, f) m -> x = Found m).
  { intros n m (A1 & A2 & A3 & A4 & A5 & (s & B1 & B2) & _). cbn [fst snd] in *. assert (s = sub) as -> by congruence.
    destruct (open_works L sub w m A1 A2 A3 A4 A5 B2) as (w3 & Y). congruence. }
  destruct x as [m| | |].
  2,3: injection H as <- <-; splits; auto; try discriminate; [intro p; left; rewrite F; reflexivity|intros n m Y; discriminate (Wk n m Y)].
  2: injection H as <- <-; splits; auto; [intro N; destruct (Nm N eq_refl)|intro p; rewrite F; reflexivity].
  destruct (Fd m eq_refl) as (Fm & Hh). assert (Tm : target (L, f) m) by (exists sub; auto).
  assert (Rm : room w 0 L -> mkstemp L (set_mask w2 PRIVATE) <> None).
  { intros R Mk. destruct (R (set_mask w2 PRIVATE) []) as (t & Y1 & Y2); [cbn; lia| |].
    - intros p Hp. left. unfold exists_ in *. cbn in Hp. rewrite F in Hp. exact Hp.
    - unfold mkstemp in Mk. rewrite Y1, Y2 in Mk. discriminate. }
  destruct (mkstemp L (set_mask w2 PRIVATE)) as [(t, w3)|] eqn:Mk.
  - destruct (mkstemp_spec _ _ _ _ Mk) as (Ab & ->). cbn [set_mask w_fs] in Ab. rewrite F in Ab.
    destruct (extract m t (set_mask (set_node (set_mask w2 PRIVATE) t (File [])) (w_umask w2))) as [ok w4] eqn:Ex.
    assert (Hf : w_fs (set_mask (set_node (set_mask w2 PRIVATE) t (File [])) (w_umask w2)) t = File []) by exact (set_same (set_mask w2 PRIVATE) t (File [])).
    destruct (extract_spec _ _ _ _ _ _ Hf Ex) as (A & Mm & Hn & B & C & D).
    assert (A' : forall q, q <> t -> w_fs w4 q = w_fs w q).
    { intros q Hq. rewrite (A q Hq). etransitivity; [apply (set_other (set_mask w2 PRIVATE)); exact Hq|]. cbn. rewrite F. reflexivity. }
    destruct ok; injection H as <- <-.
    + splits; auto; try discriminate; cbn [set_handles w_umask w_handles w_fs] in *.
      * rewrite Mm. cbn. exact M.
      * rewrite Hn. cbn. lia.
      * exists m. auto.
      * intros _. rewrite Mm. cbn. exact M.
    + splits; auto; try discriminate.
      * intro p. destruct (path_dec p t) as [->|Ne]; [|left; auto]. destruct (C eq_refl) as [Y|(K & Y)]; [left; congruence|].
        right. splits; auto. exists m. auto.
      * intros n m' (_ & _ & _ & _ & _ & T' & K & Hd & Fa & _). assert (m' = m) as -> by (eapply target_unique; eauto). discriminate (D K Hd Fa).
      * intros _. rewrite Mm. cbn. exact M.
  - injection H as <- <-. splits; try discriminate.
    + intro p. left. cbn. rewrite F. reflexivity.
    + intros n m' (_ & _ & _ & _ & _ & _ & _ & _ & _ & Y). apply Rm; [|reflexivity]. intros w' l Hl. apply Y. lia.
    + intro Y. destruct (Rm Y eq_refl).
Qed.

(** the bytes of one of the two files of a comparison: the member's, or those of the file *)
Definition side (w : world) (j : lib * afile) (c : bytes) : Prop :=
  match f_sub (snd j) with
  | None => w_fs w (f_path (snd j)) = File c
  | Some _ => exists m, target j m /\ m_kind m = KFile /\ is_data m c
  end.
(** nothing fails on this side *)
Definition side_works (w : world) (n : nat) (j : lib * afile) : Prop :=
  match f_sub (snd j) with
  | None => exists c, w_fs w (f_path (snd j)) = File c
  | Some _ => exists m, works w n j m
  end.

Definition dir_at (w w' : world) (j : lib * afile) (p : path) : Prop :=
  w_fs w p = Absent /\ w_fs w' p = Dir /\ exists m, target j m /\ m_kind m = KDir.
Lemma remove_temp w w' t m j : target j m -> ready m (w_fs w' t) -> w_fs w t = Absent ->
  w_fs (remove w' t) t = w_fs w t \/ dir_at w (remove w' t) j t.
Proof.
  intros Tm R Ab. unfold ready, remove, dir_at in *. destruct (m_kind m) eqn:K; rewrite R.
  - left. rewrite set_same. auto.
  - left. rewrite set_same. auto.
  - right. splits; eauto.
Qed.
Lemma side_member w j m c : target j m -> side w j c -> m_kind m = KFile /\ c = assemble [] (m_blocks m).
Proof.
  intros Tm. unfold side. destruct (f_sub (snd j)) eqn:S.
  - intros (m' & T' & K & D). assert (m' = m) as -> by (eapply target_unique; eauto). split; [exact K|].
    eapply is_data_unique; [exact D|apply assemble_data].
  - destruct Tm as (s & Y & _). congruence.
Qed.
Lemma ready_contents w t m : ready m (w_fs w t) -> m_kind m = KFile -> contents w t = Some (assemble [] (m_blocks m)).
Proof. intros R K. unfold ready in R. rewrite K in R. unfold contents. rewrite R. reflexivity. Qed.

Lemma works_after w w1 t j m : (forall q, q <> t -> w_fs w1 q = w_fs w q) -> works w 1 j m -> works w1 0 j m.
Proof.
  intros B (A1 & A2 & A3 & A4 & A5 & A6 & A7 & A8 & A9 & R). unfold works. splits; auto. intros w' l Hl E. destruct l; [|cbn in Hl; lia].
  apply (R w' [t]); [cbn; lia|]. intros p Hp. destruct (E p Hp) as [Y|[]]. destruct (path_dec p t) as [->|Ne]; [right; left; reflexivity|].
  left. unfold exists_ in *. rewrite <- (B p Ne). exact Y.
Qed.
Lemma pair_spec X (cmp : option bytes -> option bytes -> X) L1 f1 L2 f2 w r w' :
  compare_pair cmp L1 L2 f1 f2 w = (r, w') ->
  (named (L1, f1) -> named (L2, f2) -> r <> RUndef /\
     forall p, w_fs w' p = w_fs w p \/ dir_at w w' (L1, f1) p \/ dir_at w w' (L2, f2) p) /\
  (forall x c1 c2, r = RSum x -> side w (L1, f1) c1 -> side w (L2, f2) c2 -> x = cmp (Some c1) (Some c2)) /\
  (side_works w 1 (L1, f1) -> side_works w 1 (L2, f2) -> exists x, r = RSum x).
Proof.
  unfold compare_pair, get_paths, side, side_works. cbn [snd]. intro H. destruct (f_sub f1) as [s1|] eqn:S1.
  - destruct (untar L1 s1 w) as [[t1| |] w1] eqn:U1.
    + destruct (untar_spec L1 f1 s1 w _ _ S1 U1) as (_ & (A1 & B1 & _ & _ & m1 & T1 & R1) & _).
      destruct (f_sub f2) as [s2|] eqn:S2.
      * destruct (untar L2 s2 w1) as [[t2| |] w2] eqn:U2.
        -- destruct (untar_spec L2 f2 s2 w1 _ _ S2 U2) as (_ & (A2 & B2 & _ & _ & m2 & T2 & R2) & _).
           assert (N12 : t1 <> t2).
           { intros ->. unfold ready in R1. destruct (m_kind m1); congruence. }
           injection H as <- <-. unfold cleanup. rewrite S1, S2. split; [intros NM1 NM2; split|split].
           ++ discriminate.
           ++ intro p. assert (R1' : ready m1 (w_fs w2 t1)) by (rewrite B2 by exact N12; exact R1).
              assert (A2' : w_fs w t2 = Absent) by (rewrite <- B1 by congruence; exact A2).
              destruct (path_dec p t1) as [->|P1].
              ** assert (E : w_fs (remove (remove w2 t1) t2) t1 = w_fs (remove w2 t1) t1) by (apply remove_other; exact N12).
                 destruct (remove_temp w w2 t1 m1 (L1, f1) T1 R1' A1) as [Y|(Y1 & Y2 & Y3)]; [left; congruence|].
                 right. left. unfold dir_at. splits; auto. congruence.
              ** destruct (path_dec p t2) as [->|P2].
                 --- assert (R2' : ready m2 (w_fs (remove w2 t1) t2)) by (rewrite remove_other by congruence; exact R2).
                     destruct (remove_temp w (remove w2 t1) t2 m2 (L2, f2) T2 R2' A2') as [Y|Y]; auto.
                 --- left. rewrite !remove_other by assumption. rewrite B2, B1 by assumption. reflexivity.
           ++ intros x c1 c2 [= <-] Y1 Y2.
              destruct (side_member w (L1, f1) m1 c1 T1) as (K1 & ->); [unfold side; cbn [snd]; rewrite S1; exact Y1|].
              destruct (side_member w (L2, f2) m2 c2 T2) as (K2 & ->); [unfold side; cbn [snd]; rewrite S2; exact Y2|].
              rewrite (ready_contents w2 t2 m2 R2 K2). f_equal. unfold contents. rewrite B2 by exact N12.
              unfold ready in R1. rewrite K1 in R1. rewrite R1. reflexivity.
           ++ eauto.
        -- destruct (untar_spec L2 f2 s2 w1 _ _ S2 U2) as (_ & (A2 & B2) & _). injection H as <- <-. split; [intros NM1 NM2; split|split]; try discriminate.
           ++ intro p. destruct (path_dec p t1) as [->|P1].
              ** destruct (A2 t1) as [Y|(Y & _)]; [|unfold ready in R1; destruct (m_kind m1); congruence].
                 assert (R1' : ready m1 (w_fs w2 t1)) by (rewrite Y; exact R1).
                 destruct (remove_temp w w2 t1 m1 (L1, f1) T1 R1' A1) as [Z|Z]; auto.
              ** assert (E : w_fs (remove w2 t1) p = w_fs w2 p) by (apply remove_other; exact P1).
                 destruct (A2 p) as [Y|(Y1 & Y2 & Y3)]; [left; rewrite E, Y; auto|].
                 right. right. unfold dir_at. rewrite E. rewrite B1 in Y1 by exact P1. auto.
           ++ intros _ (m & Y). destruct (B2 0 m (works_after w w1 t1 _ m B1 Y)).
        -- destruct (untar_spec L2 f2 s2 w1 _ _ S2 U2) as (N2 & _). injection H as <- <-. split; [intros NM1 NM2; split|split]; try discriminate.
           ++ intro Y. destruct (N2 NM2 eq_refl).
           ++ destruct (N2 NM2 eq_refl).
           ++ intros _ (m & (Y1 & Y2 & Y3 & Y4 & Y5 & (s & Y6 & Y7) & _)). cbn [fst snd] in *. assert (s = s2) as -> by congruence.
              unfold untar in U2. destruct (open_works L2 s2 w1 m Y1 Y2 Y3 Y4 Y5 Y7) as (w3 & Y). rewrite Y in U2.
              destruct (mkstemp L2 _) as [(t, w4)|]; [|discriminate]. destruct (extract _ _ _) as [[] w5]; discriminate.
      * injection H as <- <-. unfold cleanup. rewrite S1, S2. split; [intros NM1 NM2; split|split].
        -- discriminate.
        -- intro p. destruct (path_dec p t1) as [->|P1].
           ++ destruct (remove_temp w w1 t1 m1 (L1, f1) T1 R1 A1) as [Y|Y]; auto.
           ++ left. rewrite remove_other by exact P1. auto.
        -- intros x c1 c2 [= <-] Y1 Y2.
           destruct (side_member w (L1, f1) m1 c1 T1) as (K1 & ->); [unfold side; cbn [snd]; rewrite S1; exact Y1|].
           rewrite (ready_contents w1 t1 m1 R1 K1). f_equal. assert (Ne : f_path f2 <> t1) by (intro Z; rewrite Z in Y2; congruence). unfold contents. rewrite (B1 _ Ne), Y2. reflexivity.
        -- eauto.
    + destruct (untar_spec L1 f1 s1 w _ _ S1 U1) as (_ & (A1 & B1) & _). injection H as <- <-. split; [intros NM1 NM2; split|split]; try discriminate.
      * intro p. destruct (A1 p) as [Y|Y]; [left; exact Y|right; left; exact Y].
      * intros (m & Y). destruct (B1 1 m Y).
    + destruct (untar_spec L1 f1 s1 w _ _ S1 U1) as (N1 & _). injection H as <- <-. split; [intros NM1 NM2; split|split]; try discriminate.
      * intro Y. destruct (N1 NM1 eq_refl).
      * destruct (N1 NM1 eq_refl).
      * intros (m & (Y1 & Y2 & Y3 & Y4 & Y5 & (s & Y6 & Y7) & _)). cbn [fst snd] in *. assert (s = s1) as -> by congruence.
        unfold untar in U1. destruct (open_works L1 s1 w m Y1 Y2 Y3 Y4 Y5 Y7) as (w3 & Y). rewrite Y in U1.
        destruct (mkstemp L1 _) as [(t, w4)|]; [|discriminate]. destruct (extract _ _ _) as [[] w5]; discriminate.
  - destruct (f_sub f2) as [s2|] eqn:S2.
    + destruct (untar L2 s2 w) as [[t2| |] w2] eqn:U2.
      * destruct (untar_spec L2 f2 s2 w _ _ S2 U2) as (_ & (A2 & B2 & _ & _ & m2 & T2 & R2) & _).
        injection H as <- <-. unfold cleanup. rewrite S1, S2. split; [intros NM1 NM2; split|split].
        -- discriminate.
        -- intro p. destruct (path_dec p t2) as [->|P2].
           ++ destruct (remove_temp w w2 t2 m2 (L2, f2) T2 R2 A2) as [Y|Y]; auto.
           ++ left. rewrite remove_other by exact P2. auto.
        -- intros x c1 c2 [= <-] Y1 Y2.
           destruct (side_member w (L2, f2) m2 c2 T2) as (K2 & ->); [unfold side; cbn [snd]; rewrite S2; exact Y2|].
           rewrite (ready_contents w2 t2 m2 R2 K2). f_equal. assert (Ne : f_path f1 <> t2) by (intro Z; rewrite Z in Y1; congruence). unfold contents. rewrite (B2 _ Ne), Y1. reflexivity.
        -- eauto.
      * destruct (untar_spec L2 f2 s2 w _ _ S2 U2) as (_ & (A2 & B2) & _). injection H as <- <-. split; [intros NM1 NM2; split|split]; try discriminate.
        -- intro p. destruct (A2 p) as [Y|Y]; [left; exact Y|right; right; exact Y].
        -- intros _ (m & Y). destruct (B2 1 m Y).
      * destruct (untar_spec L2 f2 s2 w _ _ S2 U2) as (N2 & _). injection H as <- <-. split; [intros NM1 NM2; split|split]; try discriminate.
        -- intro Y. destruct (N2 NM2 eq_refl).
        -- destruct (N2 NM2 eq_refl).
        -- intros _ (m & (Y1 & Y2 & Y3 & Y4 & Y5 & (s & Y6 & Y7) & _)). cbn [fst snd] in *. assert (s = s2) as -> by congruence.
           unfold untar in U2. destruct (open_works L2 s2 w m Y1 Y2 Y3 Y4 Y5 Y7) as (w3 & Y). rewrite Y in U2.
           destruct (mkstemp L2 _) as [(t, w4)|]; [|discriminate]. destruct (extract _ _ _) as [[] w5]; discriminate.
    + injection H as <- <-. unfold cleanup. rewrite S1, S2. split; [intros NM1 NM2; split|split].
      * discriminate.
      * auto.
      * intros x c1 c2 [= <-] Y1 Y2. unfold contents. rewrite Y1, Y2. reflexivity.
      * eauto.
Qed.

(** ** C91 no temporary file is left *)
Definition finished {X} (cs : list (pc X)) : Prop := forall c, In c cs -> exists r, c = PDone r.
(** Hashing by any number of threads in any order of their steps, and comparing two
    files.  Missing for the full claim: members that are directories, see
    [temporaries_left_refuted]. *)
Theorem no_temporary_left_partial : forall X (chk : option bytes -> X) jobs s w cs w',
  Forall named jobs -> Forall no_dir jobs ->
  work chk jobs s (map (fun _ => PStart) jobs) w = (cs, w') -> finished cs ->
  forall p, w_fs w' p = w_fs w p.
Proof.
  intros X chk jobs s w cs w' _ ND H Fi p. pose proof (run_inv chk jobs w s _ _ _ _ (start_inv chk jobs w) H) as I.
  destruct (i_rest _ _ _ _ _ I p) as [Y|(_ & _ & (j & m & Ij & T & K))]; [|exact Y|].
  - intros i c Hc. destruct (Fi c (nth_error_In _ _ Hc)) as (r & ->). discriminate.
  - rewrite Forall_forall in ND. destruct (ND j Ij m T K).
Qed.
Print Assumptions no_temporary_left_partial.
Theorem compare_no_temporary_left_partial : forall X (cmp : option bytes -> option bytes -> X) L1 f1 L2 f2 w r w',
  named (L1, f1) -> named (L2, f2) -> no_dir (L1, f1) -> no_dir (L2, f2) ->
  compare_pair cmp L1 L2 f1 f2 w = (r, w') -> forall p, w_fs w' p = w_fs w p.
Proof.
  intros X cmp L1 f1 L2 f2 w r w' N1 N2 D1 D2 H p. destruct (pair_spec _ _ _ _ _ _ _ _ _ H) as (A & _).
  destruct (A N1 N2) as (_ & B). destruct (B p) as [Y|[(_ & _ & m & T & K)|(_ & _ & m & T & K)]]; [exact Y|destruct (D1 m T K)|destruct (D2 m T K)].
Qed.
Print Assumptions compare_no_temporary_left_partial.

(** ** C92 the user's files stay as they are *)
(** at every moment of hashing, whatever the archives contain and whichever call fails *)
Theorem user_files_untouched : forall X (chk : option bytes -> X) jobs s w cs w', Forall named jobs ->
  work chk jobs s (map (fun _ => PStart) jobs) w = (cs, w') ->
  forall p, w_fs w p <> Absent -> w_fs w' p = w_fs w p.
Proof.
  intros X chk jobs s w cs w' _ H p Hp. pose proof (run_inv chk jobs w s _ _ _ _ (start_inv chk jobs w) H) as I.
  destruct (i_rest _ _ _ _ _ I p) as [Y|(Y & _)]; [|exact Y|congruence].
  intros i c Hc T. apply Hp. exact (i_fresh _ _ _ _ _ I i c p Hc T).
Qed.
Print Assumptions user_files_untouched.
Theorem compare_user_files_untouched : forall X (cmp : option bytes -> option bytes -> X) L1 f1 L2 f2 w r w',
  named (L1, f1) -> named (L2, f2) -> compare_pair cmp L1 L2 f1 f2 w = (r, w') ->
  forall p, w_fs w p <> Absent -> w_fs w' p = w_fs w p.
Proof.
  intros X cmp L1 f1 L2 f2 w r w' N1 N2 H p Hp. destruct (pair_spec _ _ _ _ _ _ _ _ _ H) as (A & _).
  destruct (A N1 N2) as (_ & B). destruct (B p) as [Y|[(Y & _)|(Y & _)]]; [exact Y|congruence..].
Qed.
Print Assumptions compare_user_files_untouched.

(** ** C93 members are hashed and compared by their bytes *)
(** Whatever the other threads do, a job ends with the hash of the bytes of its member, or
    with an error; with an error only if a call failed.  Missing for the full claim:
    members that are links, see [member_link_refuted], and members without a name. *)
Theorem member_hash_partial : forall X (chk : option bytes -> X) jobs s w cs w' i j r,
  work chk jobs s (map (fun _ => PStart) jobs) w = (cs, w') ->
  nth_error jobs i = Some j -> nth_error cs i = Some (PDone r) -> named j ->
  r <> RUndef /\
  (forall x, r = RSum x -> forall c, side w j c -> x = chk (Some c)) /\
  (side_works w (length jobs) j -> exists x, r = RSum x).
Proof.
  intros X chk jobs s w cs w' i j r H Hj Hc Nm. pose proof (run_inv chk jobs w s _ _ _ _ (start_inv chk jobs w) H) as I.
  destruct (i_good _ _ _ _ _ I i j _ Hj Hc) as (G1 & G2 & G3). split; [exact (G1 Nm)|]. split.
  - intros x E c Sd. destruct (f_sub (snd j)) eqn:S.
    + destruct (G3 x E) as (m & T & Y). destruct (side_member w j m c T Sd) as (K & ->). exact (Y K).
    + unfold side in Sd. rewrite S in Sd. specialize (G3 c Sd). congruence.
  - unfold side_works. destruct (f_sub (snd j)) eqn:S.
    + intros (m & Y). eexists. exact (G2 m Y).
    + intros (c & Y). eexists. exact (G3 c Y).
Qed.
Print Assumptions member_hash_partial.
Theorem member_compare_partial : forall X (cmp : option bytes -> option bytes -> X) L1 f1 L2 f2 w r w',
  named (L1, f1) -> named (L2, f2) -> compare_pair cmp L1 L2 f1 f2 w = (r, w') ->
  r <> RUndef /\
  (forall x c1 c2, r = RSum x -> side w (L1, f1) c1 -> side w (L2, f2) c2 -> x = cmp (Some c1) (Some c2)) /\
  (side_works w 1 (L1, f1) -> side_works w 1 (L2, f2) -> exists x, r = RSum x).
Proof.
  intros X cmp L1 f1 L2 f2 w r w' N1 N2 H. destruct (pair_spec _ _ _ _ _ _ _ _ _ H) as (A & B & C).
  split; [apply A; assumption|]. split; assumption.
Qed.
Print Assumptions member_compare_partial.

(** ** C94 extraction leaves the process as it was *)
(** One thread.  Missing for the full claim: see [mask_left_refuted], [mask_race_refuted]
    and [handles_left_refuted]. *)
Theorem process_state_partial : forall X (chk : option bytes -> X) L f w r w', hash_task chk L f w = (r, w') ->
  (room w 0 L -> w_umask w' = w_umask w) /\
  (forall x, r = RSum x -> w_umask w' = w_umask w /\ w_handles w' = w_handles w).
Proof.
  intros X chk L f w r w' H. unfold hash_task in H. destruct (f_sub f) as [sub|] eqn:S.
  - destruct (untar L sub w) as [[t| |] w1] eqn:U; destruct (untar_spec L f sub w _ _ S U) as (_ & A & B); injection H as <- <-.
    + destruct A as (_ & _ & A1 & A2 & _). destruct (remove_mask w1 t) as (R1 & R2). split; intros; [rewrite R1; auto|].
      split; congruence.
    + split; [exact B|discriminate].
    + split; [exact B|discriminate].
  - injection H as <- <-. auto.
Qed.
Print Assumptions process_state_partial.

(** ** Concrete cases *)
(** mkstemp tries the names [9; n], n = 0, 1, 2, 3 *)
Definition temps (ex : path -> bool) : option path := find (fun p => negb (ex p)) [[9; 0]; [9; 1]; [9; 2]; [9; 3]]%N.
Definition arch (hs : list header) : lib := mkLib true true true true true hs temps.
Definition ma : member := mkMember (Some [97]%N) KFile true [BData 0 [1; 2]%N true; BData 4 [5]%N true].
Definition mb : member := mkMember (Some [98]%N) KFile true [BData 0 [1; 2; 0; 0; 5]%N true].
Definition mlink : member := mkMember (Some [99]%N) (KLink [7]%N) true [].
Definition mdir : member := mkMember (Some [100]%N) KDir true [].
Definition mnone : member := mkMember None KFile true [].
Definition tar : lib := arch [HEntry mb; HEntry ma; HEntry mlink; HEntry mdir].
Definition fa : afile := mkAFile [8]%N (Some [97]%N).
Definition fb : afile := mkAFile [8]%N (Some [98]%N).
Definition fplain : afile := mkAFile [7]%N None.
Definition W : world := mkWorld (fun p => if path_dec p [7]%N then File [3]%N else Absent) 18 0.
Definition two : list (lib * afile) := [(tar, fa); (tar, fb)].
Definition idchk (o : option bytes) : option bytes := o.

Lemma tar_named f : named (tar, f).
Proof. intros m I. cbn in I. intro E. destruct I as [Y|[Y|[Y|[Y|[]]]]]; injection Y as <-; discriminate. Qed.
Lemma fa_target m : target (tar, fa) m -> m = ma.
Proof.
  intro T. eapply target_unique; [exact T|]. exists [97]%N. split; [reflexivity|]. exists [HEntry mb], [HEntry mlink; HEntry mdir].
  split; [reflexivity|]. split; [reflexivity|]. repeat constructor. exists mb, [98]%N. repeat split. discriminate.
Qed.
Lemma fb_target m : target (tar, fb) m -> m = mb.
Proof.
  intro T. eapply target_unique; [exact T|]. exists [98]%N. split; [reflexivity|]. exists [], [HEntry ma; HEntry mlink; HEntry mdir].
  repeat split; constructor.
Qed.
(** two threads take turns *)
Example interleaved_case : Forall named two /\ Forall no_dir two /\
  fst (work idchk two [0; 1; 0; 1; 1; 0; 0; 1; 1; 0; 0; 1; 1; 0] [PStart; PStart] W) =
    [PDone (RSum (Some [1; 2; 0; 0; 5]%N)); PDone (RSum (Some [1; 2; 0; 0; 5]%N))] /\
  (* while it runs there are two temporary files *)
  w_fs (snd (work idchk two [0; 1; 0; 1; 1; 0; 0; 1] [PStart; PStart] W)) [9; 0]%N = File [1; 2; 0; 0; 5]%N /\
  w_fs (snd (work idchk two [0; 1; 0; 1; 1; 0; 0; 1] [PStart; PStart] W)) [9; 1]%N = File [1; 2; 0; 0; 5]%N.
Proof.
  split; [repeat constructor; apply tar_named|]. split.
  - repeat constructor; intros m T; [rewrite (fa_target m T)|rewrite (fb_target m T)]; discriminate.
  - repeat split; vm_compute; reflexivity.
Qed.
Example member_case : side W (tar, fa) [1; 2; 0; 0; 5]%N /\ side_works W 1 (tar, fplain) /\
  fst (compare_pair (fun a b => (a, b)) tar tar fa fplain W) = RSum (Some [1; 2; 0; 0; 5]%N, Some [3]%N).
Proof.
  assert (T : target (tar, fa) ma).
  { exists [97]%N. split; [reflexivity|]. exists [HEntry mb], [HEntry mlink; HEntry mdir].
    split; [reflexivity|]. split; [reflexivity|]. repeat constructor. exists mb, [98]%N. repeat split. discriminate. }
  splits.
  - exists ma. split; [exact T|]. split; [reflexivity|]. split; [reflexivity|].
    intros [|[|[|[|[|i]]]]] H; try reflexivity. cbn in H. lia.
  - exists [3]%N. vm_compute. reflexivity.
  - vm_compute. reflexivity.
Qed.
Lemma temps_room : room W 2 tar.
Proof.
  intros w' l Hl E. cbn [l_temp tar arch]. unfold temps.
  destruct (find (fun p => negb (exists_ w' p)) [[9; 0]; [9; 1]; [9; 2]; [9; 3]]%N) as [t|] eqn:Fd.
  - exists t. split; [reflexivity|]. apply find_some in Fd. destruct Fd as (_ & Fd). destruct (exists_ w' t); [discriminate|reflexivity].
  - exfalso. assert (Q : incl [[9; 0]; [9; 1]; [9; 2]; [9; 3]]%N l).
    { intros p Hp. pose proof (find_none _ _ Fd p Hp) as Y. cbn beta in Y. destruct (E p) as [Z|Z]; [destruct (exists_ w' p); [reflexivity|discriminate]| |exact Z].
      exfalso. clear -Z Hp. destruct Hp as [<-|[<-|[<-|[<-|[]]]]]; vm_compute in Z; discriminate. }
    apply NoDup_incl_length in Q; [pose proof (Nat.le_trans _ _ _ Q Hl) as Z; cbn in Z; lia|]. repeat constructor; cbn; intuition congruence.
Qed.
Example works_case : works W (length two) (tar, fa) ma /\ works W (length two) (tar, fb) mb.
Proof.
  split; unfold works; splits; try reflexivity; try apply temps_room.
  - exists [97]%N. split; [reflexivity|]. exists [HEntry mb], [HEntry mlink; HEntry mdir].
    split; [reflexivity|]. split; [reflexivity|]. repeat constructor. exists mb, [98]%N. repeat split. discriminate.
  - repeat constructor; eauto.
  - exists [98]%N. split; [reflexivity|]. exists [], [HEntry ma; HEntry mlink; HEntry mdir]. repeat split; constructor.
  - repeat constructor; eauto.
Qed.

(** ** What goes wrong *)
(** a member that is a directory: the temporary directory stays *)
Theorem temporaries_left_refuted : exists L f w w', named (L, f) /\
  hash_task idchk L f w = (RSum None, w') /\ w_fs w [9; 0]%N = Absent /\ w_fs w' [9; 0]%N = Dir.
Proof.
  exists tar, (mkAFile [8]%N (Some [100]%N)), W, (snd (hash_task idchk tar (mkAFile [8]%N (Some [100]%N)) W)).
  split; [apply tar_named|]. repeat split.
Qed.
(** a member that is a link: the file it points to, outside the archive, is hashed *)
Theorem member_link_refuted : exists L f w, named (L, f) /\ w_fs w [7]%N = File [3]%N /\
  target (L, f) mlink /\ is_data mlink [] /\ fst (hash_task idchk L f w) = RSum (Some [3]%N).
Proof.
  exists tar, (mkAFile [8]%N (Some [99]%N)), W. split; [apply tar_named|]. split; [reflexivity|]. split; [|split; [|reflexivity]].
  - exists [99]%N. split; [reflexivity|]. exists [HEntry mb; HEntry ma], [HEntry mdir]. split; [reflexivity|]. split; [reflexivity|].
    constructor; [|constructor; [|constructor]]; [exists mb, [98]%N|exists ma, [97]%N]; repeat split; discriminate.
  - split; [reflexivity|]. intros i H. cbn in H. lia.
Qed.
(** a member without a name before the one looked for: strcmp reads through NULL *)
Theorem nameless_member_refuted : exists L w,
  In (HEntry ma) (l_headers L) /\ fst (hash_task idchk L fa w) = RUndef.
Proof. exists (arch [HEntry mnone; HEntry ma]), W. split; [cbn; auto|reflexivity]. Qed.
(** mkstemp fails: the mask stays at 077 *)
Theorem mask_left_refuted : exists L f w w', hash_task idchk L f w = (RFail, w') /\ w_umask w = 18%N /\ w_umask w' = 63%N.
Proof.
  exists (mkLib true true true true true [HEntry ma] (fun _ => None)), fa, W. eexists. repeat split.
Qed.
(** two threads that extract at the same time without any failure leave the mask at 077 *)
Theorem mask_race_refuted : exists s cs w', work idchk two s [PStart; PStart] W = (cs, w') /\ finished cs /\
  Forall (fun c => exists x, c = PDone (RSum x)) cs /\ w_umask W = 18%N /\ w_umask w' = 63%N.
Proof.
  exists [0; 1; 0; 0; 1; 1; 0; 0; 0; 1; 1; 1], (fst (work idchk two [0; 1; 0; 0; 1; 1; 0; 0; 0; 1; 1; 1] [PStart; PStart] W)),
    (snd (work idchk two [0; 1; 0; 0; 1; 1; 0; 0; 0; 1; 1; 1] [PStart; PStart] W)).
  split; [apply surjective_pairing|]. split; [|split; [|split; reflexivity]].
  - intros c I. vm_compute in I. destruct I as [<-|[<-|[]]]; eauto.
  - vm_compute. repeat constructor; eauto.
Qed.
(** a member that is not there: two archive handles, one with an open file, are lost *)
Theorem handles_left_refuted : exists L f w w', hash_task idchk L f w = (RFail, w') /\ w_handles w = 0 /\ w_handles w' = 2.
Proof. exists (arch []), fa, W. eexists. repeat split. Qed.
