(** C69: the NetCDF files of a run over many samples. *)
From Coq Require Import DecimalString DecimalZ.
From Coq Require DecimalPos.
From Coq Require Import ZArith Bool String Ascii Lia Permutation Rdefinitions List.
From Verif Require Import M_Base M_Output M_Balancer T_Balancer M_Groups S_Groups.
From Verif Require L_Base L_Samples.
Import ListNotations.
Open Scope Z_scope.

(** ** Names *)

(** The character does not occur in the string. *)
Fixpoint free (a : ascii) (s : string) : Prop :=
  match s with EmptyString => True | String b s' => a <> b /\ free a s' end.

Lemma split_at a s s' r r' : free a s -> free a s' ->
  (s ++ String a r = s' ++ String a r')%string -> s = s' /\ r = r'.
Proof.
  revert s'. induction s as [|b s IH]; intros [|b' s'] Hs Hs' E; cbn in *.
  - injection E as ->. auto.
  - injection E as <- _. destruct Hs' as [N _]. now elim N.
  - injection E as -> _. destruct Hs as [N _]. now elim N.
  - injection E as -> E. destruct (IH s') as [-> ->]; tauto.
Qed.

Lemma free_uint a d : ~ In a ["0"; "1"; "2"; "3"; "4"; "5"; "6"; "7"; "8"; "9"]%char ->
  free a (NilEmpty.string_of_uint d).
Proof.
  intros H. cbn in H. induction d; cbn; try exact I; (split; [|exact IHd]); intros ->; tauto.
Qed.

Lemma free_to_string a k :
  ~ In a ["0"; "1"; "2"; "3"; "4"; "5"; "6"; "7"; "8"; "9"; "-"]%char -> free a (to_string k).
Proof.
  intros H. assert (H' : ~ In a ["0"; "1"; "2"; "3"; "4"; "5"; "6"; "7"; "8"; "9"]%char) by (cbn in *; tauto).
  unfold to_string, NilZero.string_of_int, NilZero.string_of_uint.
  assert (Z0 : free a "0") by (cbn; split; [intros ->; apply H; cbn; tauto|exact I]).
  destruct (Z.to_int k) as [d|d]; destruct d; try exact Z0; try (apply free_uint; exact H');
    cbn [free]; (split; [intros ->; apply H; cbn; tauto|]); try exact Z0; apply free_uint; exact H'.
Qed.

Lemma to_string_inj k k' : to_string k = to_string k' -> k = k'.
Proof.
  unfold to_string. intros E.
  assert (I : forall z, NilZero.int_of_string (NilZero.string_of_int (Z.to_int z)) = Some (Z.to_int z)).
  { intros z. apply NilZero.isi; destruct z as [|q|q]; cbn; try discriminate;
      intros [= H]; apply (DecimalPos.Unsigned.to_uint_nonnil q); exact H. }
  pose proof (I k) as A. rewrite E, I in A. injection A as A.
  rewrite <- (DecimalZ.of_to k), <- (DecimalZ.of_to k'), A. reflexivity.
Qed.

Lemma append_inv_head s r r' : (s ++ r = s ++ r')%string -> r = r'.
Proof. induction s as [|a s IH]; cbn; [auto|]. intros [= E]. auto. Qed.

Lemma append_assoc s r t : ((s ++ r) ++ t = s ++ (r ++ t))%string.
Proof. induction s as [|a s IH]; cbn; [reflexivity|]. now rewrite IH. Qed.

(** Different samples or variables have different names, also when a variable is
    called "_rho" or "7_rho". *)
Lemma names_distinct k v k' v' :
  memory_name (group_name k) v = memory_name (group_name k') v' -> k = k' /\ v = v'.
Proof.
  unfold memory_name, group_name. cbn [append].
  rewrite !append_assoc. cbn [append]. intros [= E].
  apply split_at in E; [|apply free_to_string; cbn; intuition discriminate..].
  destruct E as (E & ->). split; [|reflexivity]. now apply to_string_inj.
Qed.

(** Different snapshots go to different files. *)
Lemma files_distinct base t t' : file_name base t = file_name base t' -> t = t'.
Proof.
  unfold file_name. intros E. apply append_inv_head in E. cbn [append] in E. injection E as E.
  apply split_at in E; [|apply free_to_string; cbn; intuition discriminate..].
  apply to_string_inj. tauto.
Qed.

(** ** One file *)

Lemma NoDup_left {A} (l l' : list A) : NoDup (l ++ l') -> NoDup l.
Proof.
  induction l as [|a l IH]; cbn [app]; intros H; [constructor|].
  inversion H as [|? ? Ha H']; subst. constructor; [|now apply IH].
  intros Hi. apply Ha. apply in_or_app. now left.
Qed.
Lemma NoDup_join {A} (l l' : list A) : NoDup l -> NoDup l' -> (forall a, In a l -> ~ In a l') -> NoDup (l ++ l').
Proof.
  induction l as [|a l IH]; cbn [app]; intros H H' D; [exact H'|].
  inversion H as [|? ? Ha Hl]; subst. constructor.
  - intros Hi. apply in_app_or in Hi. destruct Hi as [Hi|Hi]; [now apply Ha|]. now apply (D a); [left|].
  - apply IH; auto. intros b Hb. apply D. now right.
Qed.

Definition blank (global : cell) (vars : list string) (g : string) : ncfile :=
  map (fun v => (memory_name g v, new_fvar global)) vars.
Definition filled (vars : list string) (vals : list fvar) (g : string) : ncfile :=
  combine (map (memory_name g) vars) vals.

Lemma def_var_new f name global : ~ In name (map fst f) ->
  def_var f name global = Done (f ++ [(name, new_fvar global)], List.length f).
Proof.
  intros H. unfold def_var. destruct (existsb _ f) eqn:E; [|reflexivity].
  exfalso. apply existsb_exists in E. destruct E as (e & Hi & He). apply String.eqb_eq in He.
  apply H. rewrite <- He. now apply in_map.
Qed.

Lemma make_vars_new global g mine vars : forall f acc,
  NoDup (map fst (f ++ blank global vars g)) ->
  make_vars f global g mine vars acc =
  Done (f ++ blank global vars g, acc ++ (if mine then seq (List.length f) (List.length vars) else [])).
Proof.
  induction vars as [|v vars IH]; intros f acc H; cbn [make_vars blank map].
  - rewrite app_nil_r. destruct mine; cbn; now rewrite app_nil_r.
  - rewrite def_var_new.
    2:{ rewrite map_app in H. cbn [blank map fst] in H. apply NoDup_remove_2 in H.
        intros Hi. apply H. apply in_or_app. now left. }
    cbn [obind fst snd]. rewrite IH.
    2:{ rewrite <- app_assoc. exact H. }
    f_equal. f_equal.
    + rewrite <- app_assoc. reflexivity.
    + rewrite app_length. cbn [List.length]. rewrite Nat.add_1_r.
      destruct mine; cbn [seq]; [|now rewrite !app_nil_r]. rewrite <- app_assoc. reflexivity.
Qed.

Lemma make_dataset_none global own vars : forall groups f acc,
  ~ In own groups -> NoDup (map fst (f ++ flat_map (blank global vars) groups)) ->
  make_dataset f global own groups vars acc = Done (f ++ flat_map (blank global vars) groups, acc).
Proof.
  induction groups as [|g groups IH]; intros f acc Ho H; cbn [make_dataset flat_map].
  - now rewrite app_nil_r.
  - cbn [flat_map] in H. rewrite app_assoc in H.
    assert (H1 : NoDup (map fst (f ++ blank global vars g))).
    { rewrite map_app in H. exact (NoDup_left _ _ H). }
    rewrite make_vars_new by exact H1. cbn [obind fst snd].
    destruct (String.eqb_spec g own) as [->|N]; [elim Ho; now left|].
    rewrite app_nil_r. rewrite IH; [now rewrite app_assoc| |exact H].
    intros Hi. apply Ho. now right.
Qed.

Lemma make_dataset_new global own vars : forall g1 g2 f acc,
  ~ In own g1 -> ~ In own g2 ->
  NoDup (map fst (f ++ flat_map (blank global vars) (g1 ++ own :: g2))) ->
  make_dataset f global own (g1 ++ own :: g2) vars acc =
  Done (f ++ flat_map (blank global vars) (g1 ++ own :: g2),
        acc ++ seq (List.length f + List.length (flat_map (blank global vars) g1)) (List.length vars)).
Proof.
  induction g1 as [|g g1 IH]; intros g2 f acc H1 H2 H; cbn [make_dataset flat_map app].
  - cbn [app flat_map] in H. rewrite app_assoc in H.
    rewrite make_vars_new.
    2:{ rewrite map_app in H. exact (NoDup_left _ _ H). }
    cbn [obind fst snd]. rewrite String.eqb_refl.
    rewrite make_dataset_none by assumption. cbn [List.length]. rewrite Nat.add_0_r, app_assoc. reflexivity.
  - cbn [flat_map app] in H. rewrite app_assoc in H.
    rewrite make_vars_new.
    2:{ rewrite map_app in H. exact (NoDup_left _ _ H). }
    cbn [obind fst snd].
    destruct (String.eqb_spec g own) as [->|N]; [elim H1; now left|].
    rewrite app_nil_r. rewrite IH; [|intros Hi; apply H1; now right|exact H2|exact H].
    rewrite !app_length, app_assoc. rewrite Nat.add_assoc. reflexivity.
Qed.

Lemma put_var_at w x x' nm : forall pre post, w x = Ok x' ->
  put_var (pre ++ (nm, x) :: post) (List.length pre) w = Done (pre ++ (nm, x') :: post).
Proof.
  induction pre as [|e pre IH]; intros post E; cbn [put_var app List.length].
  - now rewrite E.
  - destruct e as [n0 x0]. rewrite IH by exact E. reflexivity.
Qed.

Lemma write_volume_block global g : forall vars ws vals pre post,
  produces global ws vals -> List.length vars = List.length vals ->
  write_volume (pre ++ blank global vars g ++ post) (seq (List.length pre) (List.length vars)) ws
  = Done (pre ++ filled vars vals g ++ post).
Proof.
  induction vars as [|v vars IH]; intros ws vals pre post Hp Hl.
  - destruct vals; [|discriminate]. inversion Hp; subst. reflexivity.
  - destruct vals as [|x vals]; [discriminate|].
    inversion Hp as [|w x0 ws' vals0 E Hp']; subst. cbn [seq List.length write_volume blank map app].
    rewrite (put_var_at w _ x _ pre) by exact E. cbn [obind].
    replace (pre ++ (memory_name g v, x) :: map (fun v0 => (memory_name g v0, new_fvar global)) vars ++ post)
      with ((pre ++ [(memory_name g v, x)]) ++ blank global vars g ++ post) by (rewrite <- app_assoc; reflexivity).
    replace (S (List.length pre)) with (List.length (pre ++ [(memory_name g v, x)]))
      by (rewrite app_length; cbn [List.length]; lia).
    rewrite (IH ws' vals) by (try exact Hp'; cbn [List.length] in Hl; lia).
    rewrite <- app_assoc. reflexivity.
Qed.

Lemma names_of_filled vars vals g : List.length vars = List.length vals ->
  map fst (filled vars vals g) = map (memory_name g) vars.
Proof.
  unfold filled. revert vals. induction vars as [|v vars IH]; intros [|x vals] H; try discriminate; [reflexivity|].
  cbn [map combine]. cbn. f_equal. apply IH. cbn [List.length] in H. lia.
Qed.
Lemma names_of_blank global vars g : map fst (blank global vars g) = map (memory_name g) vars.
Proof. unfold blank. rewrite map_map. reflexivity. Qed.

(** All names of a list of samples. *)
Definition all_names (vars : list string) (samples : list Z) : list string :=
  flat_map (fun k => map (memory_name (group_name k)) vars) samples.

Lemma all_names_NoDup vars samples : NoDup vars -> NoDup samples -> NoDup (all_names vars samples).
Proof.
  intros Hv. induction samples as [|k samples IH]; intros Hs; cbn [all_names flat_map]; [constructor|].
  inversion Hs as [|? ? Hk Hs']; subst. apply NoDup_join.
  - apply FinFun.Injective_map_NoDup; [|exact Hv]. intros v v' E. now apply names_distinct in E.
  - now apply IH.
  - intros nm H1 H2. apply in_map_iff in H1. destruct H1 as (v & <- & _).
    apply in_flat_map in H2. destruct H2 as (k' & Hk' & H2). apply in_map_iff in H2. destruct H2 as (v' & E & _).
    apply names_distinct in E. destruct E as (<- & _). now apply Hk.
Qed.

Lemma names_of_blanks global vars samples :
  map fst (flat_map (blank global vars) (map group_name samples)) = all_names vars samples.
Proof.
  induction samples as [|k samples IH]; [reflexivity|]. cbn [map flat_map all_names].
  rewrite map_app, names_of_blank. f_equal. exact IH.
Qed.
Lemma names_of_filleds vars vals samples : (forall k, In k samples -> List.length vars = List.length (vals k)) ->
  map fst (flat_map (fun k => filled vars (vals k) (group_name k)) samples) = all_names vars samples.
Proof.
  induction samples as [|k samples IH]; intros H; [reflexivity|]. cbn [map flat_map all_names].
  rewrite map_app, names_of_filled by (apply H; now left). f_equal. apply IH. intros k' Hk'. apply H. now right.
Qed.
Lemma group_name_inj k k' : group_name k = group_name k' -> k = k'.
Proof. unfold group_name. intros E. apply append_inv_head in E. now apply to_string_inj. Qed.

(** ** One snapshot of one batch *)

Definition block (vars : list string) (vals : Z -> list fvar) (k : Z) : ncfile :=
  filled vars (vals k) (group_name k).

Lemma in_group_names k samples : In (group_name k) (map group_name samples) -> In k samples.
Proof. intros H. apply in_map_iff in H. destruct H as (k' & E & H). apply group_name_inj in E. now subst. Qed.

Lemma write_members_ok f global vars data vals samples :
  samples <> [] -> NoDup samples ->
  NoDup (map fst f ++ all_names vars samples) ->
  (forall k, In k samples -> produces global (data k) (vals k) /\ List.length vars = List.length (vals k)) ->
  write_members f global (map group_name samples) vars data samples
  = Done (f ++ flat_map (block vars vals) samples).
Proof.
  intros Hne Hs Hn Hd. unfold write_members.
  assert (Ds : forall l1 k l2, samples = l1 ++ k :: l2 ->
    make_dataset f global (group_name k) (map group_name samples) vars [] =
    Done (f ++ flat_map (blank global vars) (map group_name samples),
          seq (List.length f + List.length (flat_map (blank global vars) (map group_name l1))) (List.length vars))).
  { intros l1 k l2 E. rewrite E, map_app. cbn [map].
    assert (Nk : ~ In k (l1 ++ l2)) by (apply NoDup_remove_2; now rewrite <- E).
    rewrite make_dataset_new.
    - reflexivity.
    - intros Hi. apply in_group_names in Hi. apply Nk. apply in_or_app. now left.
    - intros Hi. apply in_group_names in Hi. apply Nk. apply in_or_app. now right.
    - change (group_name k :: map group_name l2) with (map group_name (k :: l2)).
      rewrite <- map_app, <- E. rewrite map_app, names_of_blanks. exact Hn. }
  assert (K : forall l2 l1, samples = l1 ++ l2 ->
    fold_left (fun r k => obind r (fun f' =>
      obind (make_dataset f global (group_name k) (map group_name samples) vars []) (fun fa =>
        write_volume f' (snd fa) (data k)))) l2
      (Done (f ++ flat_map (block vars vals) l1 ++ flat_map (blank global vars) (map group_name l2)))
    = Done (f ++ flat_map (block vars vals) samples)).
  { induction l2 as [|k l2 IH]; intros l1 E; cbn [fold_left map flat_map].
    - rewrite app_nil_r in *. now subst.
    - cbn [obind]. rewrite (Ds l1 k l2 E). cbn [obind snd].
      destruct (Hd k) as (Hp & Hl). { rewrite E. apply in_or_app. right. now left. }
      assert (El : (List.length f + List.length (flat_map (blank global vars) (map group_name l1)))%nat
                   = List.length (f ++ flat_map (block vars vals) l1)).
      { rewrite app_length. f_equal.
        rewrite <- (map_length fst (flat_map (blank _ _) _)), <- (map_length fst (flat_map (block _ _) _)).
        rewrite names_of_blanks. unfold block. rewrite names_of_filleds; [reflexivity|].
        intros k' Hk'. apply Hd. rewrite E. apply in_or_app. now left. }
      rewrite El. rewrite app_assoc.
      rewrite (write_volume_block global (group_name k) vars (data k) (vals k)) by assumption.
      specialize (IH (l1 ++ [k])). rewrite flat_map_app in IH. cbn [flat_map] in IH. rewrite app_nil_r in IH.
      unfold block at 2 in IH. repeat rewrite <- app_assoc in IH. repeat rewrite <- app_assoc. apply IH. rewrite E. reflexivity. }
  destruct samples as [|k0 samples]; [congruence|].
  rewrite (Ds [] k0 samples eq_refl). cbn [obind fst].
  exact (K (k0 :: samples) [] eq_refl).
Qed.

(** The file after the batches whose samples are [done]. *)
Definition expected (vars : list string) (vals : Z -> nat -> list fvar) (t : nat) (done : list Z) : ncfile :=
  flat_map (block vars (fun k => vals k t)) done.

Section Run.
Variables (base : string) (global : cell) (vars : list string)
  (snaps : Z -> list (list (fvar -> res fvar))) (vals : Z -> nat -> list fvar) (count : nat).
Hypothesis Hvars : NoDup vars.

(** Sample [k] writes [count] snapshots. *)
Definition complete (k : Z) : Prop :=
  List.length (snaps k) = count /\
  forall t, (t < count)%nat -> produces global (nth t (snaps k) []) (vals k t) /\
    List.length vars = List.length (vals k t).

(** The state between two batches. *)
Definition after (fs0 fs : filesystem) (done : list Z) : Prop :=
  (forall t, (t < count)%nat -> fs (file_name base (Z.of_nat t)) = Some (expected vars vals t done)) /\
  (forall n, (forall t, (t < count)%nat -> n <> file_name base (Z.of_nat t)) -> fs n = fs0 n).

Lemma batch_from_ok samples done new_file fs0 : samples <> [] ->
  NoDup (done ++ samples) -> Forall complete (done ++ samples) -> (new_file = true -> done = []) ->
  forall fuel t fs,
  (t + fuel = count)%nat ->
  (forall t', (t' < t)%nat -> fs (file_name base (Z.of_nat t')) = Some (expected vars vals t' (done ++ samples))) ->
  (forall t', (t <= t' < count)%nat -> new_file = false -> fs (file_name base (Z.of_nat t')) = Some (expected vars vals t' done)) ->
  (forall n, (forall t, (t < count)%nat -> n <> file_name base (Z.of_nat t)) -> fs n = fs0 n) ->
  exists fs', batch_from fuel fs base new_file global vars snaps samples t = Done fs' /\
    after fs0 fs' (done ++ samples).
Proof.
  intros Hne Hnd Hc Hnew. rewrite Forall_forall in Hc.
  assert (Hcs : forall k, In k samples -> complete k) by (intros k Hk; apply Hc; apply in_or_app; now right).
  induction fuel as [|fuel IH]; intros t fs Ht Hdone Htodo Hrest; cbn [batch_from].
  - exists fs. split; [reflexivity|]. split; [|exact Hrest]. intros t' Ht'. apply Hdone. lia.
  - assert (F1 : forallb (fun k => Nat.leb (List.length (snaps k)) t) samples = false).
    { destruct samples as [|k samples]; [congruence|]. cbn [forallb]. apply andb_false_iff. left.
      apply Nat.leb_gt. destruct (Hcs k (or_introl eq_refl)) as (-> & _). lia. }
    rewrite F1.
    assert (F2 : forallb (fun k => Nat.ltb t (List.length (snaps k))) samples = true).
    { apply forallb_forall. intros k Hk. apply Nat.ltb_lt. destruct (Hcs k Hk) as (-> & _). lia. }
    rewrite F2. unfold collective_write.
    assert (F3 : (if new_file then Done [] else match fs (file_name base (Z.of_nat t)) with
                   Some f => Done f | None => Failed end) = Done (expected vars vals t done)).
    { destruct new_file.
      - now rewrite (Hnew eq_refl).
      - now rewrite (Htodo t) by (try reflexivity; lia). }
    rewrite F3. cbn [obind].
    rewrite (write_members_ok _ global vars _ (fun k => vals k t)).
    + cbn [obind]. apply IH; [lia| | |].
      * intros t' Ht'. destruct (String.eqb_spec (file_name base (Z.of_nat t')) (file_name base (Z.of_nat t))) as [E|N].
        -- apply files_distinct in E. apply Nat2Z.inj in E. subst t'. unfold expected. now rewrite flat_map_app.
        -- apply Hdone. assert (t' <> t) by (intros ->; now apply N). lia.
      * intros t' Ht' Hf. destruct (String.eqb_spec (file_name base (Z.of_nat t')) (file_name base (Z.of_nat t))) as [E|N].
        -- apply files_distinct in E. lia.
        -- apply Htodo; [lia|exact Hf].
      * intros n Hn. destruct (String.eqb_spec n (file_name base (Z.of_nat t))) as [E|N].
        -- elim (Hn t); [lia|exact E].
        -- now apply Hrest.
    + exact Hne.
    + apply NoDup_rev in Hnd. rewrite rev_app_distr in Hnd. apply NoDup_left in Hnd.
      rewrite <- (rev_involutive samples). now apply NoDup_rev.
    + unfold expected, block. rewrite names_of_filleds.
      * unfold all_names. rewrite <- flat_map_app. now apply all_names_NoDup.
      * intros k Hk. destruct (Hc k (in_or_app _ _ _ (or_introl Hk))) as (_ & H). apply H. lia.
    + intros k Hk. destruct (Hcs k Hk) as (_ & H). apply H. lia.
Qed.

Lemma longest_complete samples : samples <> [] -> Forall complete samples -> longest snaps samples = count.
Proof.
  unfold longest. induction samples as [|k samples IH]; intros Hne H; [congruence|].
  inversion H as [|? ? (Hk & _) H']; subst. cbn [fold_right]. rewrite Hk.
  destruct samples as [|k' samples]; [apply Nat.max_0_r|]. rewrite IH by (try exact H'; discriminate). lia.
Qed.

Lemma uq_run_ok fs0 : forall batches done first fs,
  Forall (fun b => b <> []) batches -> NoDup (done ++ concat batches) -> Forall complete (done ++ concat batches) ->
  (first = true -> done = []) -> (first = false -> after fs0 fs done) -> (first = true -> fs = fs0) ->
  batches <> [] \/ first = false ->
  exists fs', uq_run fs base first global vars snaps batches = Done fs' /\ after fs0 fs' (done ++ concat batches).
Proof.
  induction batches as [|b batches IH]; intros done first fs Hb Hnd Hc Hf Ha Hs Hx; cbn [uq_run concat] in *.
  - destruct Hx as [Hx | ->]; [congruence|]. exists fs. split; [reflexivity|]. rewrite app_nil_r. now apply Ha.
  - inversion Hb as [|? ? Hb1 Hb2]; subst.
    rewrite app_assoc in Hnd, Hc.
    pose proof (NoDup_left _ _ Hnd) as Hnd1. pose proof (proj1 (Forall_app _ _ _) Hc) as (Hc1 & _).
    unfold batch. rewrite longest_complete; [|exact Hb1|].
    2:{ apply Forall_app in Hc1. tauto. }
    destruct (batch_from_ok b done first fs0 Hb1 Hnd1 Hc1 Hf count 0 fs) as (fs' & E & A).
    + lia.
    + intros t' Ht'. lia.
    + intros t' Ht' Hff. apply (proj1 (Ha Hff)). lia.
    + intros n Hn. destruct first; [now rewrite Hs|]. now apply (proj2 (Ha eq_refl)).
    + rewrite E. cbn [obind]. rewrite app_assoc. apply IH; auto; discriminate.
Qed.
End Run.

(** Turns of the loop and the lists of the statistical ranks. *)
Lemma turns_permutation : forall lists count, Forall (fun l => List.length l = count) lists ->
  Permutation (concat (turns lists count)) (concat lists).
Proof.
  intros lists count. unfold turns.
  induction lists as [|l lists IH]; intros H.
  - cbn [map concat]. induction (seq 0 count) as [|b s IHs]; [constructor|exact IHs].
  - inversion H as [|? ? Hl H']; subst. cbn [map concat].
    apply Permutation_sym. apply (Permutation_trans (Permutation_app_head _ (Permutation_sym (IH H')))). apply Permutation_sym.
    assert (El : l = map (fun b => nth b l 0) (seq 0 (List.length l))).
    { clear. induction l as [|a l IH]; [reflexivity|]. cbn [List.length seq map]. rewrite <- seq_shift, map_map. f_equal.
      rewrite IH at 1. apply map_ext. reflexivity. }
    rewrite El at 2. generalize (seq 0 (List.length l)) as s. clear. intros s.
    induction s as [|b s IHs]; [constructor|]. cbn [map concat].
    cbn [app]. constructor. apply (Permutation_trans (Permutation_app_head _ IHs)).
    rewrite !app_assoc. apply Permutation_app_tail. apply Permutation_app_comm.
Qed.

(** ** What is in the files *)

Lemma filled_In vars xs g : List.length vars = List.length xs ->
  forall i v x, nth_error vars i = Some v -> nth_error xs i = Some x -> In (memory_name g v, x) (filled vars xs g).
Proof.
  unfold filled. revert xs. induction vars as [|v0 vars IH]; intros [|x0 xs] Hl [|i] v x Hv Hx; cbn in *; try discriminate.
  - injection Hv as ->. injection Hx as ->. now left.
  - right. apply (IH xs) with (i := i); auto.
Qed.

Lemma NoDup_fst_unique (f : ncfile) n x : NoDup (map fst f) -> In (n, x) f -> reads f n x.
Proof.
  intros Hn Hi y. split; [|now intros ->]. revert Hn Hi. induction f as [|[m z] f IH]; cbn; [tauto|].
  intros Hn Hi Hy. inversion Hn as [|? ? Hm Hn']; subst.
  assert (Q : forall u, In (m, u) f -> False) by (intros u Hu; apply Hm; apply (in_map fst) in Hu; exact Hu).
  destruct Hi as [Ei|Hi], Hy as [Ey|Hy].
  - congruence.
  - injection Ei as -> ->. elim (Q _ Hy).
  - injection Ey as -> ->. elim (Q _ Hi).
  - auto.
Qed.

Lemma flat_map_length_const {A B} (h : A -> list B) n l : (forall a, In a l -> List.length (h a) = n) ->
  List.length (flat_map h l) = (List.length l * n)%nat.
Proof.
  induction l as [|a l IH]; intros H; [reflexivity|]. cbn [flat_map List.length Nat.mul].
  rewrite app_length, H by now left. rewrite IH; [reflexivity|]. intros b Hb. apply H. now right.
Qed.

(** *** C69.  A run over the samples in [concat batches], each writing [count]
    snapshots, ends; afterwards file number [t] has the variables of every sample
    under the name of the sample, with the values written at its snapshot [t], no
    others, and no other file is touched.  (A file left from an earlier run is
    replaced: nothing is assumed about [fs0].)
    Partial: every sample must write the same number of snapshots (see
    [C69_different_steps_refuted]), and the writes must succeed (C67). *)
Theorem C69_sample_files_partial fs0 base global vars snaps vals count batches :
  NoDup vars -> batches <> [] -> Forall (fun b => b <> []) batches -> NoDup (concat batches) ->
  (forall k, In k (concat batches) -> List.length (snaps k) = count /\
     forall t, (t < count)%nat ->
       produces global (nth t (snaps k) []) (vals k t) /\ List.length vars = List.length (vals k t)) ->
  exists fs, uq_run fs0 base true global vars snaps batches = Done fs /\
    (forall t, (t < count)%nat -> exists f, fs (file_name base (Z.of_nat t)) = Some f /\
       (forall k i v x, In k (concat batches) -> nth_error vars i = Some v -> nth_error (vals k t) i = Some x ->
          reads f ("sample_" ++ to_string k ++ "_" ++ v)%string x) /\
       List.length f = (List.length (concat batches) * List.length vars)%nat) /\
    (forall n, (forall t, (t < count)%nat -> n <> file_name base (Z.of_nat t)) -> fs n = fs0 n).
Proof.
  intros Hv Hb Hbs Hnd Hc.
  assert (Hc' : Forall (complete global vars snaps vals count) (concat batches)).
  { apply Forall_forall. exact Hc. }
  destruct (uq_run_ok base global vars snaps vals count Hv fs0 batches [] true fs0 Hbs Hnd Hc') as (fs & E & A & B);
    [reflexivity|discriminate|reflexivity|now left|].
  exists fs. split; [exact E|]. split; [|exact B].
  intros t Ht. exists (expected vars vals t (concat batches)). split; [exact (A t Ht)|].
  assert (Hl : forall k, In k (concat batches) -> List.length vars = List.length (vals k t)).
  { intros k Hk. destruct (Hc k Hk) as (_ & H). now apply H. }
  split.
  - intros k i v x Hk Hi Hx.
    assert (En : ("sample_" ++ to_string k ++ "_" ++ v)%string = memory_name (group_name k) v).
    { unfold memory_name, group_name. cbn [String.append]. rewrite append_assoc. reflexivity. }
    rewrite En. apply NoDup_fst_unique.
    + unfold expected, block. rewrite names_of_filleds by exact Hl. now apply all_names_NoDup.
    + unfold expected. apply in_flat_map. exists k. split; [exact Hk|].
      unfold block. apply filled_In with (i := i); auto.
  - unfold expected. apply flat_map_length_const. intros k Hk. unfold block, filled.
    rewrite combine_length, map_length, <- Hl by exact Hk. apply Nat.min_id.
Qed.

(** The same for the samples that the load balancer hands out (C22): the lists of
    the statistical ranks have equal lengths, and turn [b] of the loop runs the
    [b]th sample of each list. *)
Theorem C69_balanced_run_partial fs0 base global vars snaps vals count ms sx sy sz samples :
  servable ms sx sy sz samples -> samples <> [] -> NoDup samples -> NoDup vars ->
  (forall k, In k samples -> List.length (snaps k) = count /\
     forall t, (t < count)%nat ->
       produces global (nth t (snaps k) []) (vals k t) /\ List.length vars = List.length (vals k t)) ->
  exists lists : list (list Z),
    (forall r l sc pc, 0 <= r < ms * sx * sy * sz ->
       load_balance ms sx sy sz (ms * sx * sy * sz) samples r = Ok (l, sc, pc) ->
       nth_error lists (Z.to_nat (crank sc)) = Some l) /\
    exists fs, uq_run fs0 base true global vars snaps
        (turns lists (List.length samples / Z.to_nat ms)) = Done fs /\
    forall t, (t < count)%nat -> exists f, fs (file_name base (Z.of_nat t)) = Some f /\
       (forall k i v x, In k samples -> nth_error vars i = Some v -> nth_error (vals k t) i = Some x ->
          reads f ("sample_" ++ to_string k ++ "_" ++ v)%string x) /\
       List.length f = (List.length samples * List.length vars)%nat.
Proof.
  intros Hserv Hne Hs Hv Hc.
  pose proof Hserv as (Hm & Hx & Hy & Hz & Hfit & Hmod).
  destruct (C22_samples_partitioned ms sx sy sz samples Hserv) as (group & Hg & Hall & Hlen).
  set (lists := map group (zrange 0 ms)).
  set (n := (List.length samples / Z.to_nat ms)%nat).
  assert (Hn : Forall (fun l => List.length l = n) lists).
  { apply Forall_forall. intros l Hl. apply in_map_iff in Hl. destruct Hl as (k & <- & Hk).
    apply L_Base.zrange_In in Hk. specialize (Hlen k Hk). unfold n.
    assert (E : List.length samples = (List.length (group k) * Z.to_nat ms)%nat).
    { apply Nat2Z.inj. rewrite Nat2Z.inj_mul, Z2Nat.id by lia. lia. }
    rewrite E. symmetry. apply Nat.div_mul. lia. }
  assert (Hcat : concat lists = samples) by (unfold lists; now rewrite <- flat_map_concat_map).
  pose proof (turns_permutation lists n Hn) as Hp. rewrite Hcat in Hp.
  assert (Hn0 : n <> O).
  { intros E. apply Hne. rewrite <- Hcat. clear -Hn E. rewrite E in Hn. induction lists as [|l ls IH]; [reflexivity|].
    inversion Hn as [|? ? Hl Hls]; subst. destruct l; [|discriminate]. now apply IH. }
  exists lists. split.
  { intros r l sc pc Hr E. pose proof (Hg r l sc pc Hr E) as ->.
    destruct (proj1 (C22_ranks_grouped ms sx sy sz samples Hserv) r Hr) as (l' & sc' & pc' & E' & Hk & _).
    pose proof (eq_trans (eq_sym E) E') as Eq. injection Eq as _ <- _.
    unfold lists. rewrite L_Samples.nth_error_map_zrange by lia.
    destruct (Z.ltb_spec (crank sc) ms); [reflexivity|lia]. }
  destruct (C69_sample_files_partial fs0 base global vars snaps vals count (turns lists n)) as (fs & E & A & _).
  - exact Hv.
  - unfold turns. destruct n; [congruence|discriminate].
  - apply Forall_forall. intros b Hb. unfold turns in Hb. apply in_map_iff in Hb. destruct Hb as (i & <- & _).
    intros E. apply map_eq_nil in E. apply Hne. rewrite <- Hcat, E. reflexivity.
  - exact (Permutation_NoDup (Permutation_sym Hp) Hs).
  - intros k Hk. apply Hc. exact (Permutation_in k Hp Hk).
  - exists fs. split; [exact E|]. intros t Ht. destruct (A t Ht) as (f & Ef & Hr & Hl). exists f.
    split; [exact Ef|]. split.
    + intros k i v x Hk. apply Hr. exact (Permutation_in k (Permutation_sym Hp) Hk).
    + now rewrite Hl, (Permutation_length Hp).
Qed.

(** A batch in which two samples write different numbers of snapshots never ends
    well, whatever is written. *)
Theorem C69_different_steps fs base new_file global vars snaps samples a b :
  In a samples -> In b samples -> List.length (snaps a) <> List.length (snaps b) ->
  forall fs', batch fs base new_file global vars snaps samples <> Done fs'.
Proof.
  assert (K : forall a b, In a samples -> In b samples -> (List.length (snaps a) < List.length (snaps b))%nat ->
    forall fuel t fs fs', (t <= List.length (snaps a))%nat -> (List.length (snaps b) <= t + fuel)%nat ->
      batch_from fuel fs base new_file global vars snaps samples t <> Done fs').
  { clear. intros a b Ha Hb Hab. induction fuel as [|fuel IH]; intros t fs fs' Ht Hf; [lia|]. cbn [batch_from].
    destruct (forallb (fun k => Nat.leb _ t) samples) eqn:F1.
    { rewrite forallb_forall in F1. specialize (F1 b Hb). cbn beta in F1. apply Nat.leb_le in F1. lia. }
    destruct (forallb (fun k => Nat.ltb t _) samples) eqn:F2; [|discriminate].
    rewrite forallb_forall in F2. specialize (F2 a Ha). cbn beta in F2. apply Nat.ltb_lt in F2.
    destruct (collective_write _ _ _ _ _ _ _) as [fs1| |]; [|discriminate..]. cbn [obind]. apply IH; lia. }
  assert (L : forall k, In k samples -> (List.length (snaps k) <= longest snaps samples)%nat).
  { clear. unfold longest. induction samples as [|k0 l IH]; intros k Hk; cbn [fold_right]; [destruct Hk|].
    destruct Hk as [->|Hk].
    - apply Nat.le_max_l.
    - apply (Nat.le_trans _ _ _ (IH k Hk)). apply Nat.le_max_r. }
  intros Ha Hb Hd fs'. unfold batch.
  destruct (Nat.lt_total (List.length (snaps a)) (List.length (snaps b))) as [H|[H|H]]; [|congruence|].
  - apply (K a b Ha Hb H); [lia|]. exact (L b Hb).
  - apply (K b a Hb Ha H); [lia|]. exact (L a Ha).
Qed.

(** The claim for samples with numbers of snapshots of their own (no
    "numberOfSaves": one snapshot per time step) is false: *)
Definition every_run : Prop := forall fs0 base global vars snaps vals batches,
  NoDup vars -> batches <> [] -> Forall (fun b => b <> []) batches -> NoDup (concat batches) ->
  (forall k t, In k (concat batches) -> (t < List.length (snaps k))%nat ->
       produces global (nth t (snaps k) []) (vals k t) /\ List.length vars = List.length (vals k t)) ->
  exists fs, uq_run fs0 base true global vars snaps batches = Done fs.

(** A writer of a variable with one cell. *)
Definition set1 (x : R) : fvar -> res fvar := fun v => Ok (mkfvar (fv_dims v) (fun _ => Some x)).
Definition set1_val (x : R) : fvar := mkfvar (fv_dims (new_fvar (1, 1, 1))) (fun _ => Some x).

(** Two samples side by side, one of them with one more snapshot: the second write
    of this one waits for ever for the other. *)
Theorem C69_different_steps_refuted : exists snaps vals,
  (forall k t, In k [0; 1] -> (t < List.length (snaps k))%nat ->
       produces (1, 1, 1) (nth t (snaps k) []) (vals k t) /\ List.length ["rho"%string] = List.length (vals k t)) /\
  uq_run (fun _ => None) "out" true (1, 1, 1) ["rho"%string] snaps [[0; 1]] = Hung.
Proof.
  exists (fun k => if k =? 0 then [[set1 R0]] else [[set1 R0]; [set1 R1]]).
  exists (fun k t => match t with O => [set1_val R0] | _ => [set1_val R1] end).
  split; [|reflexivity].
  intros k t [<-|[<-|[]]] Ht; cbn in Ht; destruct t as [|[|t]]; try lia;
    (split; [repeat constructor|reflexivity]).
Qed.

(** Two samples one after the other, the second with one more snapshot: the second
    file is not made anew, and opening it fails. *)
Theorem C69_more_steps_later_refuted : exists snaps vals,
  (forall k t, In k [0; 1] -> (t < List.length (snaps k))%nat ->
       produces (1, 1, 1) (nth t (snaps k) []) (vals k t) /\ List.length ["rho"%string] = List.length (vals k t)) /\
  uq_run (fun _ => None) "out" true (1, 1, 1) ["rho"%string] snaps [[0]; [1]] = Failed.
Proof.
  exists (fun k => if k =? 0 then [[set1 R0]] else [[set1 R0]; [set1 R1]]).
  exists (fun k t => match t with O => [set1_val R0] | _ => [set1_val R1] end).
  split; [|reflexivity].
  intros k t [<-|[<-|[]]] Ht; cbn in Ht; destruct t as [|[|t]]; try lia;
    (split; [repeat constructor|reflexivity]).
Qed.

Theorem C69_every_run_refuted : ~ every_run.
Proof.
  intros H. destruct C69_different_steps_refuted as (snaps & vals & Hs & E).
  destruct (H (fun _ => None) "out"%string (1, 1, 1) ["rho"%string] snaps vals [[0; 1]]) as (fs & E').
  - repeat constructor. intros [].
  - discriminate.
  - repeat constructor. discriminate.
  - cbn. repeat constructor; cbn; intuition discriminate.
  - exact Hs.
  - rewrite E in E'. discriminate.
Qed.

(** A sample whose variables are already in the file is reported, nothing is
    written over. *)
Lemma def_var_names f name global r : def_var f name global = Done r -> forall n, In n (map fst f) -> In n (map fst (fst r)).
Proof.
  unfold def_var. destruct (existsb _ f); intros E n Hn; [discriminate|]. injection E as <-. cbn [fst].
  rewrite map_app. apply in_or_app. now left.
Qed.
Lemma make_vars_names global g mine vars : forall f acc r, make_vars f global g mine vars acc = Done r ->
  forall n, In n (map fst f) -> In n (map fst (fst r)) /\ ~ In n (map (memory_name g) vars).
Proof.
  induction vars as [|v vars IH]; intros f acc r E n Hn; cbn [make_vars] in E.
  - injection E as <-. split; [exact Hn|intros []].
  - destruct (def_var f (memory_name g v) global) as [fd| |] eqn:Ed; cbn [obind] in E; try discriminate.
    destruct (IH _ _ _ E n) as (H1 & H2); [eapply def_var_names; eauto|].
    split; [exact H1|]. intros [<-|Hi]; [|now apply H2].
    unfold def_var in Ed. destruct (existsb _ f) eqn:Ee; [discriminate|].
    apply in_map_iff in Hn. destruct Hn as (e & Ee' & He).
    assert (existsb (fun e => String.eqb (fst e) (memory_name g v)) f = true) as K; [|congruence].
    apply existsb_exists. exists e. split; [exact He|]. now rewrite Ee', String.eqb_refl.
Qed.
Lemma make_dataset_names global own vars : forall groups f acc r, make_dataset f global own groups vars acc = Done r ->
  forall n g, In n (map fst f) -> In g groups -> ~ In n (map (memory_name g) vars).
Proof.
  induction groups as [|g groups IH]; intros f acc r E n g' Hn Hg; [destruct Hg|]. cbn [make_dataset] in E.
  destruct (make_vars f global g (String.eqb g own) vars acc) as [fa| |] eqn:Em; cbn [obind] in E; try discriminate.
  destruct (make_vars_names _ _ _ _ _ _ _ Em n Hn) as (H1 & H2).
  destruct Hg as [<-|Hg]; [exact H2|]. eapply IH; eauto.
Qed.

Lemma fold_bad {A B} (h : A -> B -> outcome A) l : forall (r : outcome A) b,
  (forall a, r <> Done a) -> fold_left (fun r k => obind r (fun a => h a k)) l r <> Done b.
Proof.
  induction l as [|k l IH]; intros r b H; cbn [fold_left]; [apply H|]. apply IH.
  intros a. destruct r as [a0| |]; cbn [obind]; try discriminate. now elim (H a0).
Qed.

Theorem C69_repeated_sample fs name global vars data samples f k v fs' :
  fs name = Some f -> In k samples -> In v vars -> In (memory_name (group_name k) v) (map fst f) ->
  collective_write fs name false global vars data samples <> Done fs'.
Proof.
  intros Ef Hk Hv Hin E. unfold collective_write in E. rewrite Ef in E. cbn [obind] in E.
  destruct (write_members _ _ _ _ _ _) as [f'| |] eqn:Ew; cbn [obind] in E; try discriminate.
  unfold write_members in Ew. destruct samples as [|k0 samples]; [destruct Hk|].
  destruct (make_dataset f global (group_name k0) (map group_name (k0 :: samples)) vars []) as [r| |] eqn:Em.
  - refine (make_dataset_names _ _ _ _ _ _ _ Em _ (group_name k) Hin _ _).
    + now apply in_map.
    + now apply in_map.
  - cbn [obind] in Ew. refine (fold_bad _ _ _ _ _ Ew). intros a K. discriminate.
  - cbn [obind] in Ew. refine (fold_bad _ _ _ _ _ Ew). intros a K. discriminate.
Qed.
Example C69_repeated_example :
  let snaps (k : Z) := [[set1 R0]] in
  uq_run (fun _ => None) "out" true (1, 1, 1) ["rho"%string] snaps [[0]; [0]] = Failed.
Proof. reflexivity. Qed.

(** Four samples in two batches with two snapshots of two variables. *)
Example C69_example :
  let w k t v := IZR (100 * k + 10 * Z.of_nat t + v) in
  let snaps k := map (fun t => [set1 (w k t 0); set1 (w k t 1)]) (seq 0 2) in
  let vals k t := [set1_val (w k t 0); set1_val (w k t 1)] in
  exists fs, uq_run (fun _ => None) "out" true (1, 1, 1) ["rho"; "mx"]%string snaps [[0; 2]; [1; 3]] = Done fs /\
    exists f, fs "out_1.nc"%string = Some f /\
      map fst f = ["sample_0_rho"; "sample_0_mx"; "sample_2_rho"; "sample_2_mx";
                   "sample_1_rho"; "sample_1_mx"; "sample_3_rho"; "sample_3_mx"]%string /\
      reads f "sample_3_mx" (set1_val (w 3 1%nat 1)).
Proof.
  intros w snaps vals.
  destruct (C69_sample_files_partial (fun _ => None) "out" (1, 1, 1) ["rho"; "mx"]%string snaps vals 2 [[0; 2]; [1; 3]])
    as (fs & E & A & _).
  - repeat constructor; cbn; intuition discriminate.
  - discriminate.
  - repeat constructor; discriminate.
  - cbn. repeat constructor; cbn; intuition discriminate.
  - intros k _. split; [reflexivity|]. intros t Ht. destruct t as [|[|t]]; try lia; (split; [repeat constructor|reflexivity]).
  - exists fs. split; [exact E|]. destruct (A 1%nat) as (f & Ef & Hr & _); [lia|].
    exists f. split; [exact Ef|]. split.
    + revert Ef. assert (Some (fs "out_1.nc"%string) = Some (fs "out_1.nc"%string)) by reflexivity.
      injection E as <-. cbn. intros Ef. injection Ef as <-. reflexivity.
    + apply (Hr 3 1%nat "mx"%string); [cbn; tauto|reflexivity|reflexivity].
Qed.

Print Assumptions C69_sample_files_partial.
Print Assumptions C69_balanced_run_partial.
Print Assumptions C69_different_steps.
Print Assumptions C69_repeated_sample.
Print Assumptions C69_different_steps_refuted.
Print Assumptions C69_more_steps_later_refuted.
Print Assumptions C69_every_run_refuted.
