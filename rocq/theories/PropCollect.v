(** Properties of the collection of files (C44, C45). *)
From Verif Require Import Util HeapModel HeapProofs CollectModel ReportSpec ReportProofs.
From Coq Require Import Sorting.Permutation.
Local Open Scope Z_scope.

(** ** C44: size limits *)

(** the number of files of size [s] recorded in conf->sizes *)
Definition recorded (s : Z) (st : coll) : nat :=
  match tfind s (co_sizes st) with Some e => fs_nb e | None => 0 end.

(** whatever was collected before ([l]), the next regular file is added exactly when its
    size is within the limits, and nothing else changes *)
Theorem size_limits_exact : forall c l path i,
  exists st st',
    collect_files c l coll_empty = HOk st /\ process_file c path i st = HOk st' /\
    (within (cf_minsize c) (cf_maxsize c) (i_size i) ->
       exists f, f_path f = path /\ f_size f = i_size i /\
         Permutation (h_tree (co_heap st')) (f :: h_tree (co_heap st)) /\
         (forall s, recorded s st' = if s =? i_size i then S (recorded s st) else recorded s st)) /\
    (~ within (cf_minsize c) (cf_maxsize c) (i_size i) -> st' = st).
Proof.
  intros c l path i. destruct (collect_files_inv c l [] _ collect_inv_empty) as (st & E & I). cbn [app] in I.
  destruct (process_file_inv c path i _ _ I) as (st' & E' & I'). exists st, st'. split; [auto|]. split; [auto|].
  assert (W : size_ok c (i_size i) = true <-> within (cf_minsize c) (cf_maxsize c) (i_size i)).
  { unfold size_ok, within. lia. }
  split.
  - intros H. exists (mkFile path (i_size i) (prioritized c path)). split; [auto|]. split; [auto|].
    destruct I as (_ & P & _ & T). destruct I' as (_ & P' & _ & T').
    assert (CE : collected c [(path, i)] = [mkFile path (i_size i) (prioritized c path)]).
    { unfold collected. cbn [filter fst snd]. apply W in H. unfold size_ok in H. rewrite H. reflexivity. }
    rewrite CE in *. cbn [rev app] in *. split.
    + rewrite <- P', <- P. reflexivity.
    + intros s. unfold recorded. rewrite T, T'. rewrite cnt_cons. cbn [f_size]. rewrite (Z.eqb_sym s).
      destruct (i_size i =? s); destruct (cnt s (collected c l)) as [|k] eqn:Z; reflexivity.
  - intros H. unfold process_file in E'. destruct (size_ok c (i_size i)) eqn:S; [destruct H; now apply W|].
    congruence.
Qed.

Definition cfl := mkConf 2 5 0 [] None false false.
Example size_limits_ex :
  match collect_files cfl (map (fun s => ([Z.to_N s], mkInfo TReg s 0 0 0)) [1; 2; 3; 5; 6]) coll_empty with
  | HOk st => map f_size (h_tree (co_heap st)) | _ => [] end = [5; 2; 3].
Proof. vm_compute. reflexivity. Qed.

(** ** C45: the permission filter *)

(** Which permission bit decides: owner, group, other; the execute bit for a directory,
    the read bit otherwise.  APR numbers the bits in hexadecimal digits: user 0x400 read,
    0x100 execute; group 0x040, 0x010; world 0x004, 0x001. *)
Inductive who := Owner | Group | World.
Definition class (uid : N) (gids : list N) (user group : N) (w : who) : Prop :=
  match w with
  | Owner => user = uid
  | Group => user <> uid /\ In group gids
  | World => user <> uid /\ ~ In group gids
  end.
Definition bit (dir : bool) (w : who) : N :=
  (match w with Owner => 8 | Group => 4 | World => 0 end + if dir then 0 else 2)%N.
Definition is_dir (t : ftype) : bool := match t with TDir => true | _ => false end.

Lemma land_pow b p : (N.land (2 ^ b) p =? 0)%N = negb (N.testbit p b).
Proof.
  destruct (N.testbit p b) eqn:T; cbn [negb].
  - apply N.eqb_neq. intros H. apply (f_equal (fun x => N.testbit x b)) in H.
    rewrite N.land_spec, N.pow2_bits_true, T, N.bits_0 in H. discriminate.
  - apply N.eqb_eq. apply N.bits_inj. intros k. rewrite N.land_spec, N.bits_0.
    destruct (N.eq_dec b k) as [<-|NE]; [now rewrite T, andb_false_r|].
    now rewrite N.pow2_bits_false.
Qed.

Theorem permission_rule : forall c i,
  check_permissions c i = true <->
  cf_userid c = 0%N \/
  exists w, class (cf_userid c) (cf_gids c) (i_user i) (i_group i) w /\
            N.testbit (i_prot i) (bit (is_dir (i_type i)) w) = true.
Proof.
  intros c i. unfold check_permissions. destruct (cf_userid c =? 0)%N eqn:U; [split; auto; left; lia|].
  assert (G : existsb (N.eqb (i_group i)) (cf_gids c) = true <-> In (i_group i) (cf_gids c)).
  { rewrite existsb_exists. split; [intros (x & I & E); now replace (i_group i) with x by lia|].
    intros I. exists (i_group i). split; auto. lia. }
  assert (X : forall d r, match i_type i with TDir => d | _ => r end = if is_dir (i_type i) then d else r : N).
  { intros. now destruct (i_type i). }
  assert (B : forall w p, (N.land (if is_dir (i_type i)
      then match w with Owner => UEXEC | Group => GEXEC | World => WEXEC end
      else match w with Owner => UREAD | Group => GREAD | World => WREAD end) p =? 0)%N
      = negb (N.testbit p (bit (is_dir (i_type i)) w))).
  { intros w p. rewrite <- land_pow. f_equal. f_equal. now destruct (is_dir (i_type i)), w. }
  rewrite !X. destruct (i_user i =? cf_userid c)%N eqn:O; [|destruct (existsb _ _) eqn:GE].
  - rewrite (B Owner), negb_involutive. split.
    + intros H. right. exists Owner. split; [cbn; lia|auto].
    + intros [H|(w & C & H)]; [lia|]. destruct w; auto; destruct C; lia.
  - rewrite (B Group), negb_involutive. split.
    + intros H. right. exists Group. split; [cbn; split; [lia|now apply G]|auto].
    + intros [H|(w & C & H)]; [lia|]. destruct w; auto; cbn in C; [lia|]. destruct C as [_ C]. destruct C. now apply G.
  - rewrite (B World), negb_involutive. split.
    + intros H. right. exists World. split; [cbn; split; [lia|]; intros I; apply G in I; congruence|auto].
    + intros [H|(w & C & H)]; [lia|]. destruct w; auto; cbn in C; [lia|]. destruct C as [_ C]. apply G in C. congruence.
Qed.

(** a file of mode rw-r----- owned by user 7 and group 9: read by a member of group 9, not
    by the owner of other files *)
Example permission_ex :
  let i := mkInfo TReg 1 7 9 0x0640 in
  check_permissions (mkConf 0 0 3 [8; 9]%N None false false) i = true /\
  check_permissions (mkConf 0 0 3 [8]%N None false false) i = false /\
  check_permissions (mkConf 0 0 7 [] None false false) (mkInfo TReg 1 7 9 0x0044) = false.
Proof. vm_compute. auto. Qed.

Print Assumptions size_limits_exact.
Print Assumptions permission_rule.
