(** Lemmas about initial data. *)
From Coq Require Import ZArith List Bool Reals String Lia Lra.
From Verif Require Import M_Base L_Base M_Foreach L_Foreach M_Sim M_Mpi M_Init S_Init.
Import ListNotations.
Open Scope Z_scope.

(** * Parameters *)
Lemma find_In ps n v : NoDup (names_of ps) -> find_parameter ps n = Some v <-> In (n, v) ps.
Proof.
  induction ps as [|[m w] ps IH]; cbn; [intuition discriminate|]. intros H. inversion H as [|? ? H1 H2]; subst.
  destruct (String.eqb_spec m n) as [->|N].
  - split; [intros K; injection K as ->; auto|]. intros [K|K]; [congruence|]. exfalso. apply H1. apply (in_map fst) in K. exact K.
  - rewrite IH by exact H2. split; [auto|]. intros [K|K]; [congruence|exact K].
Qed.
Lemma find_none_iff ps n : find_parameter ps n = None <-> ~ In n (names_of ps).
Proof.
  induction ps as [|[m w] ps IH]; cbn; [tauto|]. destruct (String.eqb_spec m n) as [->|N]; [split; [discriminate|tauto]|].
  rewrite IH. tauto.
Qed.
Lemma find_app ps qs n : find_parameter (ps ++ qs) n = match find_parameter ps n with Some v => Some v | None => find_parameter qs n end.
Proof. induction ps as [|[m w] ps IH]; cbn; [reflexivity|]. destruct (String.eqb m n); auto. Qed.
Lemma set_names ps n v : names_of (set_or_add_parameter ps n v) = names_of ps ++ (if find_parameter ps n then [] else [n]).
Proof.
  unfold set_or_add_parameter. destruct (find_parameter ps n) eqn:F.
  - clear F. rewrite app_nil_r. unfold names_of. rewrite map_map. apply map_ext. intros [m w]. cbn.
    destruct (String.eqb_spec m n) as [->|]; reflexivity.
  - unfold names_of. rewrite map_app. reflexivity.
Qed.
Lemma set_find ps n v m : find_parameter (set_or_add_parameter ps n v) m = if String.eqb n m then Some v else find_parameter ps m.
Proof.
  unfold set_or_add_parameter. destruct (find_parameter ps n) eqn:F.
  - revert F. induction ps as [|[k w] ps IH]; cbn; [discriminate|]. destruct (String.eqb_spec k n) as [->|N]; cbn.
    + intros _. destruct (String.eqb_spec n m) as [->|N2]; [reflexivity|]. clear IH.
      induction ps as [|[k w'] ps IH]; cbn; [reflexivity|]. destruct (String.eqb_spec k n) as [->|]; cbn.
      * destruct (String.eqb_spec n m) as [|]; [contradiction|exact IH].
      * destruct (String.eqb k m); [reflexivity|exact IH].
    + intros K. specialize (IH K). destruct (String.eqb_spec k m) as [->|N2]; [|exact IH].
      destruct (String.eqb_spec n m) as [->|]; [contradiction|reflexivity].
  - rewrite find_app. cbn. destruct (String.eqb_spec n m) as [->|]; [now rewrite F|]. destruct (find_parameter ps m); reflexivity.
Qed.
Lemma nodup_snoc {A} (l : list A) a : NoDup l -> ~ In a l -> NoDup (l ++ [a]).
Proof.
  induction l as [|b l IH]; cbn; intros H N; [constructor; [intros []|constructor]|]. inversion H as [|? ? H1 H2]; subst.
  constructor; [|apply IH; tauto]. rewrite in_app_iff. cbn. intuition.
Qed.
Lemma set_NoDup ps n v : NoDup (names_of ps) -> NoDup (names_of (set_or_add_parameter ps n v)).
Proof.
  intros H. rewrite set_names. destruct (find_parameter ps n) eqn:F; [now rewrite app_nil_r|].
  apply nodup_snoc; [exact H|]. now apply find_none_iff.
Qed.
Lemma set_parameters_find new : forall ps m, NoDup (names_of new) ->
  find_parameter (set_parameters ps new) m = match find_parameter new m with Some v => Some v | None => find_parameter ps m end.
Proof.
  unfold set_parameters. induction new as [|[n v] new IH]; intros ps m H; cbn; [reflexivity|].
  inversion H as [|? ? H1 H2]; subst. rewrite IH by exact H2. rewrite set_find. destruct (String.eqb_spec n m) as [->|]; [|reflexivity].
  apply find_none_iff in H1. rewrite H1. reflexivity.
Qed.
Lemma set_parameters_NoDup new : forall ps, NoDup (names_of ps) -> NoDup (names_of (set_parameters ps new)).
Proof. unfold set_parameters. induction new as [|[n v] new IH]; intros ps H; cbn; [exact H|]. apply IH. now apply set_NoDup. Qed.

Lemma given_iff configured sample n v : NoDup (names_of configured) -> NoDup (names_of sample) ->
  given configured sample n v <-> find_parameter (set_parameters configured sample) n = Some v.
Proof.
  intros Hc Hs. rewrite set_parameters_find by exact Hs. unfold given. rewrite <- (find_In sample n v Hs), <- (find_In configured n v Hc), <- find_none_iff.
  destruct (find_parameter sample n); [|intuition congruence]. split; [intros [K|(K & _)]; [exact K|discriminate]|auto].
Qed.

Lemma bind_find ps : forall ns n, NoDup (names_of ps) ->
  bind_parameters ps ns n = match find_parameter ps n with Some v => Some (to_python v) | None => ns n end.
Proof.
  unfold bind_parameters. induction ps as [|[m v] ps IH]; intros ns n H; cbn; [reflexivity|]. inversion H as [|? ? H1 H2]; subst.
  rewrite IH by exact H2. unfold bind_name. rewrite (String.eqb_sym n m). destruct (String.eqb_spec m n) as [->|]; [|reflexivity].
  apply find_none_iff in H1. rewrite H1. reflexivity.
Qed.
Lemma module_find math numpy ps ns n : NoDup (names_of ps) ->
  main_module math numpy ps ns n = match numpy n with Some v => Some v | None =>
    match math n with Some v => Some v | None =>
      match find_parameter ps n with Some v => Some (to_python v) | None => ns n end end end.
Proof. intros H. unfold main_module, import_star. rewrite bind_find by exact H. reflexivity. Qed.

(** * Writes to all cells *)
Lemma pokes {I A} (pos : I -> Z) (val : I -> option A) l : forall u : vol A,
  NoDup l -> (forall i j, In i l -> In j l -> pos i = pos j -> i = j) ->
  (forall i, In i l -> 0 <= pos i < vnx u * vny u * vnz u) ->
  let run := fold_res (fun i u => match val i with Some a => poke u (pos i) a | None => Throw end) l u in
  ((exists u', run = Ok u' /\ vnx u' = vnx u /\ vny u' = vny u /\ vnz u' = vnz u /\
      (forall i, In i l -> val i = Some (vdat u' (pos i))) /\
      forall q, (forall i, In i l -> pos i <> q) -> vdat u' q = vdat u q) \/
   (run = Throw /\ exists i, In i l /\ val i = None)).
Proof.
  induction l as [|i l IH]; intros u ND Inj Rng; cbn.
  - left. exists u. repeat split; intros; contradiction.
  - inversion ND as [|? ? Ni ND']; subst. destruct (val i) as [a|] eqn:Vi; [|right; split; [reflexivity|exists i; auto]].
    unfold poke. pose proof (Rng i (or_introl eq_refl)) as Ri. rewrite (proj2 (Z.leb_le _ _)), (proj2 (Z.ltb_lt _ _)) by lia. cbn [andb bind].
    set (u1 := mkvol _ _ _ _). destruct (IH u1) as [(u' & R1 & X & Y & Zz & V & O)|(R1 & j & Hj & Vj)].
    + exact ND'.
    + intros j k Hj Hk. apply Inj; right; assumption.
    + intros j Hj. apply (Rng j). right; assumption.
    + left. exists u'. split; [exact R1|]. split; [exact X|]. split; [exact Y|]. split; [exact Zz|]. split.
      * intros j [<-|Hj]; [|now apply V]. rewrite Vi, O.
        -- unfold u1. cbn. now rewrite Z.eqb_refl.
        -- intros k Hk E. apply Ni. rewrite (Inj i k); auto; [left; reflexivity|right; exact Hk].
      * intros q Hq. rewrite O by (intros k Hk; apply Hq; right; exact Hk). unfold u1. cbn.
        destruct (Z.eqb_spec q (pos i)) as [->|]; [|reflexivity]. exfalso. apply (Hq i); [left; reflexivity|reflexivity].
    + right. split; [exact R1|]. exists j. split; [right; exact Hj|exact Vj].
Qed.
