(** VecOrder.v — the order of concepts and relations in the vectorized engine. *)
From Coq Require Import Permutation Reals Lra.
From Verif Require Import Base BaseFacts Num Functions Spec SortFacts RealFacts FunctionsFacts Fcm FcmSpec VecSpec DynSpec
  FcmBasics FcmInv FcmInv2 FcmInv3 FcmIter FcmRun FcmRun2 FcmRun3 FcmOrder FcmStop FcmVec FcmVec2 FcmVec3 FcmVec4 FcmVec5.
Local Open Scope R_scope.
Notation ends arcs := (map (fun a : string * R * string => let '(d, _, o) := a in (o, d)) arcs).

Lemma last_weight_in (arcs : list (string * R * string)) d w o : NoDup (ends arcs) -> In (d, w, o) arcs -> last_weight arcs o d = w.
Proof.
  induction arcs as [|[[d' w'] o'] arcs IH] using rev_ind; intros ND H; [easy|]. rewrite last_weight_snoc. rewrite map_app in ND. cbn [map] in ND.
  apply in_app_iff in H as [H|[H|[]]].
  - assert (ND1 : NoDup (ends arcs)) by (apply NoDup_remove_1 in ND; now rewrite app_nil_r in ND).
    destruct (String.eqb_spec o' o) as [E1|], (String.eqb_spec d' d) as [E2|]; cbn [andb]; auto.
    exfalso. apply NoDup_remove_2 in ND. rewrite app_nil_r in ND. apply ND. subst. apply in_map_iff. exists (d, w, o). auto.
  - injection H as -> -> ->. now rewrite !String.eqb_refl.
Qed.
Lemma last_weight_perm (arcs arcs' : list (string * R * string)) o d : NoDup (ends arcs) -> Permutation arcs arcs' -> last_weight arcs o d = last_weight arcs' o d.
Proof.
  intros ND P. assert (ND' : NoDup (ends arcs')) by (eapply Permutation_NoDup; [|exact ND]; now apply Permutation_map).
  destruct (in_dec (fun a b : string * string => ltac:(decide equality; apply string_dec)) (o, d) (ends arcs)) as [H|H].
  - apply in_map_iff in H as ([[d' w] o'] & E & H). injection E as -> ->. rewrite (last_weight_in arcs d w o); auto.
    symmetry. apply last_weight_in; auto. eapply Permutation_in; eauto.
  - rewrite !last_weight_none; auto. intros X. apply H. eapply Permutation_in; [apply Permutation_sym, Permutation_map, P|exact X].
Qed.
Lemma topo_by_key (f : string -> node R -> R) (t : dict (node R)) : NoDup (dkeys t) ->
  map (fun p => f (fst p) (snd p)) t = map (fun c => match dget t c with Some n => f c n | None => 0 end) (dkeys t).
Proof.
  intros ND. unfold dkeys. rewrite map_map. apply map_ext_in. intros [c n] H. cbn [fst snd]. now rewrite (In_dget t c n ND H).
Qed.
Lemma input_sim (s t : fcm R) x c n n' : sim s t -> NoDup (dkeys (m_topo s)) -> NoDup (dkeys (m_topo t)) -> NoDup (ends (m_arcs s)) -> strip n' = strip n ->
  vec_input (m_topo s) (m_arcs s) x c n = vec_input (m_topo t) (m_arcs t) x c n'.
Proof.
  intros S Ns Nt Na En. unfold vec_input. destruct (strip_fields _ _ En) as (_ & _ & _ & E4 & E5 & _). assert (Es : forall v, signal n' v = signal n v) by (intros v; unfold signal; now rewrite E4).
  assert (E : nsum (map (fun p => nmul (signal (snd p) (x (fst p))) (last_weight (m_arcs s) (fst p) c)) (m_topo s)) =
              nsum (map (fun p => nmul (signal (snd p) (x (fst p))) (last_weight (m_arcs t) (fst p) c)) (m_topo t))).
  { rewrite !nsum_Rsum. rewrite (topo_by_key (fun k n => nmul (signal n (x k)) (last_weight (m_arcs s) k c)) (m_topo s) Ns).
    rewrite (topo_by_key (fun k n => nmul (signal n (x k)) (last_weight (m_arcs t) k c)) (m_topo t) Nt).
    apply Rsum_Permutation.
    assert (P : Permutation (dkeys (m_topo s)) (dkeys (m_topo t))) by (apply NoDup_Permutation; auto; intros k; now apply sim_keys).
    eapply Permutation_trans; [apply Permutation_map, P|]. erewrite map_ext; [apply Permutation_refl|]. intros k. cbv beta.
    pose proof (sm_topo _ _ S k) as T. destruct (dget (m_topo s) k) as [m|], (dget (m_topo t) k) as [m'|]; try discriminate; auto.
    cbn [option_map] in T. apply Some_inj in T. apply strip_fields in T as (_ & _ & _ & T4 & _). unfold signal. rewrite T4.
    now rewrite (last_weight_perm (m_arcs s) (m_arcs t) k c Na (sm_arcs _ _ S)). }
  rewrite E, E5, Es. reflexivity.
Qed.
Lemma orbit_sim (s t : fcm R) x L : sim s t -> NoDup (dkeys (m_topo s)) -> NoDup (dkeys (m_topo t)) -> NoDup (ends (m_arcs s)) ->
  vec_orbit (m_topo s) (m_arcs s) x L -> vec_orbit (m_topo t) (m_arcs t) x L.
Proof.
  intros S Ns Nt Na V k c n' Hk Hn'. destruct (sim_node t s c n' (sim_sym _ _ S) Hn') as (n & Hn & En).
  destruct (V k c n Hk Hn) as (f & id & a & z & A1 & A2 & A3 & A4 & A5). destruct (strip_fields _ _ En) as (_ & E2 & _ & _ & _ & E6 & E7).
  exists f, id, a, z. split; [congruence|]. split; auto. split; [congruence|]. split; auto. cbv zeta in *.
  rewrite <- (input_sim s t (x k) c n n' S Ns Nt Na (eq_sym En)), <- E2. exact A4.
Qed.
Lemma settled_perm sd cs cs' (x x' : nat -> string -> R) j : Permutation cs cs' -> (forall k c, (k <= j)%nat -> In c cs -> x k c = x' k c) ->
  settled sd cs x j = settled sd cs' x' j.
Proof.
  intros P H. unfold settled. rewrite !nsum_Rsum.
  assert (E : forall k, (k <= j)%nat -> Rsum (map (x k) cs) = Rsum (map (x' k) cs')).
  { intros k Hk. rewrite (map_ext_in (x k) (x' k)) by (intros c Hc; now apply H). apply Rsum_Permutation. now apply Permutation_map. }
  rewrite !E by lia. reflexivity.
Qed.
Lemma settled_for_perm ex sd cs cs' (x x' : nat -> string -> R) j : Permutation cs cs' -> (forall k c, (k <= j)%nat -> In c cs -> x k c = x' k c) ->
  settled_for ex sd cs x j -> settled_for ex sd cs' x' j.
Proof.
  intros P H [H1 H2]. split; auto. intros i Hi. rewrite <- (settled_perm sd cs cs' x x' i P); [now apply H2|]. intros k c Hk. apply H. lia.
Qed.

(** no concept can take the value that marks unused cells *)
Definition unmarked (s : fcm R) : Prop := forall c n f id a z y, dget (m_topo s) c = Some n -> nd_func n = Some f -> get_const_by_name f = Some id ->
  nd_args n = Some a -> exec_actv_function id z (process_function_args a) = Ok y -> y <> 2.
Lemma orbit_unmarked (s : fcm R) x L c0 : unmarked s -> vec_orbit (m_topo s) (m_arcs s) x L -> In c0 (concepts s) -> x 0%nat c0 <> 2 -> forall k, (k <= L)%nat -> x k c0 <> 2.
Proof.
  intros U V Hc H0 [|k] Hk; auto. apply dget_Some_In in Hc as [n Hn]. destruct (V k c0 n Hk Hn) as (f & id & a & z & A1 & A2 & A3 & _ & A5). exact (U c0 n f id a z _ Hn A1 A2 A3 A5).
Qed.
Lemma recorded_early cs m L (x : nat -> string -> R) c k : (L < m)%nat -> recorded cs m L x c k = if Nat.leb k L then x k c else 2.
Proof. intros H. unfold recorded. replace (Nat.leb m L) with false by (symmetry; apply Nat.leb_gt; lia). now rewrite Bool.andb_false_r. Qed.

Lemma vec_run_sim' (r : bool) (s t s' t' : fcm R) : sane s -> sane t -> m_debug s = false -> concepts s <> [] -> (1 <= m_maxit s)%Z ->
  sim s (set_iters (m_iters s) t) -> NoDup (map fst (relations s)) -> unmarked s -> (forall c, In c (concepts s) -> (if r then initial s c else value s c) <> Some 2) ->
  run_inference r s = (s', Ok tt) -> run_inference r t = (t', Ok tt) -> m_oob s' = false ->
  (m_oob t = false -> m_oob t' = false) /\ forall c, history t' c = history s' c /\ value t' c = value s' c.
Proof.
  intros Hs Ht D Hc Hm Sm0 ND U H2 Es Et Ob.
  assert (Kk : forall c, In c (concepts s) <-> In c (concepts t)) by (intros c; exact (sim_keys s (set_iters (m_iters s) t) c Sm0)).
  assert (Se : settings t = settings s) by exact (sm_set _ _ Sm0).
  assert (Tp : forall c, option_map strip (dget (m_topo t) c) = option_map strip (dget (m_topo s) c)) by exact (sm_topo _ _ Sm0).
  assert (Xp : forall c, dget (m_exec t) c = dget (m_exec s) c) by exact (sm_exec _ _ Sm0).
  destruct (sane_parts _ Hs) as (Ns & _ & Ks & _). destruct (sane_parts _ Ht) as (Nt & _ & Kt & _).
  assert (P : Permutation (concepts s) (concepts t)) by (apply NoDup_Permutation; auto; intros k; apply Kk).
  pose proof (settings_max _ _ Se) as (M1 & M2 & M3 & M4 & M5 & M6).
  assert (Hct : concepts t <> []) by (intros E; rewrite E in P; apply Permutation_sym, Permutation_nil in P; auto).
  destruct (run_vectorized r s s' Hs D Hc Hm Es) as (L & x & col & V).
  destruct (run_vectorized r t t' Ht ltac:(congruence) Hct ltac:(rewrite M1; auto) Et) as (L' & x' & col' & V').
  assert (Na : NoDup (ends (m_arcs s))).
  { replace (ends (m_arcs s)) with (map fst (relations s)); auto. unfold relations. rewrite map_map. apply map_ext. now intros [[d w] o]. }
  assert (O1 : vec_orbit (m_topo t) (m_arcs t) x L) by exact (orbit_sim s (set_iters (m_iters s) t) x L Sm0 Ns Nt Na (vru_orbit _ _ _ _ _ _ V)). pose proof (vru_orbit _ _ _ _ _ _ V') as O2.
  assert (St : forall c, In c (concepts t) -> x 0%nat c = x' 0%nat c).
  { intros c Hin. pose proof (vru_start _ _ _ _ _ _ V' c Hin) as A. assert (Hin' : In c (concepts s)) by (now apply (Kk c)).
    pose proof (vru_start _ _ _ _ _ _ V c Hin') as B. destruct r.
    - unfold initial, history in A, B. rewrite (Xp c) in A. rewrite A in B. now injection B.
    - pose proof (Tp c) as T. unfold value, get_concept_value in A, B. destruct (dget (m_topo s) c) as [m|], (dget (m_topo t) c) as [m'|]; try discriminate.
      cbn [option_map] in T. apply Some_inj in T. apply strip_fields in T as (T1 & _). injection A as A. injection B as B. congruence. }
  pose proof (vec_orbit_unique _ _ _ _ _ _ Nt O1 O2 St) as Q.
  assert (Qs : forall k c, (k <= L)%nat -> (k <= L')%nat -> In c (concepts s) -> x k c = x' k c) by (intros k c A B Hin; apply Q; auto; now apply (Kk c)).
  pose proof (vru_oob _ _ _ _ _ _ V) as Oo. rewrite Ob in Oo. symmetry in Oo. apply Bool.orb_false_iff in Oo as [_ Oo]. apply Nat.leb_gt in Oo.
  pose proof (vru_len _ _ _ _ _ _ V) as Ln. pose proof (vru_len _ _ _ _ _ _ V') as Ln'. rewrite M1 in Ln'.
  assert (EL : L' = L).
  { pose proof (vru_stop _ _ _ _ _ _ V Oo) as T. destruct (Nat.lt_trichotomy L' L) as [X|[X|X]]; auto; exfalso.
    - assert (T' : settled_for (Z.to_nat (m_extra t)) (m_sdiff t) (concepts t) x' L') by (apply (vru_stop _ _ _ _ _ _ V'); rewrite M1; lia).
      apply (vru_first _ _ _ _ _ _ V L'); [lia|]. rewrite M2, M4 in T'.
      eapply settled_for_perm; [apply Permutation_sym; exact P| |exact T']. intros k c Hk Hin. symmetry. apply Q; auto; lia.
    - apply (vru_first _ _ _ _ _ _ V' L); [lia|]. rewrite M2, M4.
      eapply settled_for_perm; [exact P| |exact T]. intros k c Hk Hin; apply Qs; auto; lia. }
  subst L'. set (m := Z.to_nat (m_maxit s)) in *.
  assert (Col : forall (u u' : fcm R) w k, NoDup (concepts u) -> concepts u <> [] -> Z.to_nat (m_maxit u) = m -> vec_run r u u' L w k -> (forall c j, In c (concepts u) -> (j <= L)%nat -> w j c <> 2) -> k = Nat.min (S L) (m - 1)).
  { intros u u' w k Nu Hu Em Vu Hw. destruct (concepts u) as [|c0 cs] eqn:Ec; [congruence|]. assert (E0 : hd_error (concepts u) = Some c0) by now rewrite Ec.
    pose proof (vru_cut _ _ _ _ _ _ Vu c0 E0) as Cu. rewrite Em in Cu. rewrite <- Ec in Nu. apply (history_length u L w m c0 k Nu E0); auto. intros j Hj. apply Hw; auto. now left. }
  assert (X2 : forall c j, In c (concepts s) -> (j <= L)%nat -> x j c <> 2).
  { intros c j Hin Hj. apply (orbit_unmarked s x L c U (vru_orbit _ _ _ _ _ _ V) Hin); auto. intros E. apply (H2 c Hin). now rewrite (vru_start _ _ _ _ _ _ V c Hin), E. }
  assert (E1 : col = Nat.min (S L) (m - 1)) by (apply (Col s s' x col); auto).
  assert (E2 : col' = Nat.min (S L) (m - 1)).
  { apply (Col t t' x' col'); auto; [now rewrite M1|]. intros c j Hin Hj. rewrite <- Q by auto. apply X2; auto. now apply (Kk c). }
  rewrite <- E1 in E2. subst col'. split.
  { intros Ot. rewrite (vru_oob _ _ _ _ _ _ V'), Ot, M1. cbn [orb]. fold m. apply Nat.leb_gt. lia. }
  assert (Hh : forall c, In c (concepts s) -> history t' c = history s' c).
  { intros c Hin. assert (Hin' : In c (concepts t)) by now apply (Kk c). rewrite (vru_hist _ _ _ _ _ _ V c Hin), (vru_hist _ _ _ _ _ _ V' c Hin'), M1. fold m. f_equal.
    apply map_ext_in. intros k Hk. apply in_seq in Hk. rewrite !recorded_early by lia. destruct (Nat.leb_spec k L) as [A|A]; auto. symmetry. apply Qs; auto. }
  assert (Fr : forall (u u' : fcm R), sane u -> run_inference r u = (u', Ok tt) -> concepts u' = concepts u /\ sane u').
  { intros u u' Hu Er. assert (Su : sane (fst (step (OpRun r) u))) by (apply from_fresh_snoc; auto). cbn [step] in Su. rewrite Er in Su. split; auto.
    pose proof (run_wframe r u) as W. rewrite Er in W. cbn [fst] in W. destruct W as (W & _). unfold concepts. now rewrite (statics_keys _ _ W). }
  destruct (Fr s s' Hs Es) as [Cs Ss]. destruct (Fr t t' Ht Et) as [Ct St'].
  intros c. destruct (in_dec string_dec c (concepts s)) as [Hin|Hin].
  - split; [now apply Hh|]. assert (Hin' : In c (concepts t)) by now apply (Kk c).
    pose proof (vru_hist _ _ _ _ _ _ V c Hin) as A. destruct (vru_value _ _ _ _ _ _ V c _ Hin A) as (d & v & B1 & B2 & B3).
    pose proof (vru_hist _ _ _ _ _ _ V' c Hin') as A'. destruct (vru_value _ _ _ _ _ _ V' c _ Hin' A') as (d' & v' & B1' & B2' & B3').
    pose proof (Hh c Hin) as E. rewrite A, A' in E. apply Some_inj in E. rewrite E, M5, M2 in *. assert (d' = d) by congruence. subst d'. rewrite B2 in B2'. injection B2' as <-. congruence.
  - assert (Hin' : ~ In c (concepts t)) by (intros X; apply Hin; now apply (Kk c)).
    destruct (sane_parts _ Ss) as (_ & _ & K1 & _). destruct (sane_parts _ St') as (_ & _ & K2 & _).
    rewrite <- Cs in Hin. rewrite <- Ct in Hin'. unfold history, value, get_concept_value.
    rewrite !(proj2 (dget_None _ _)); auto; unfold keys_eq in *; rewrite ?K1, ?K2; auto.
Qed.

Lemma vec_run_sim (r : bool) (s t s' t' : fcm R) : sane s -> sane t -> m_debug s = false -> concepts s <> [] -> (1 <= m_maxit s)%Z ->
  sim s t -> NoDup (map fst (relations s)) -> unmarked s -> (forall c, In c (concepts s) -> (if r then initial s c else value s c) <> Some 2) ->
  run_inference r s = (s', Ok tt) -> run_inference r t = (t', Ok tt) -> m_oob s' = false ->
  (m_oob t = false -> m_oob t' = false) /\ forall c, history t' c = history s' c /\ value t' c = value s' c.
Proof.
  intros Hs Ht D Hc Hm [A B C E G]. apply vec_run_sim'; auto. constructor; auto.
Qed.
