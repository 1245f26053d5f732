(** Property C81: what the main functions of the samples record and export. *)
From stdpp Require Import prelude gmap strings.
From Coq Require Import ZArith NArith QArith.
From Verif Require Import Num NumQ NumOrd NumAdd Res Store Leaf Sched Stepper Sim World Api Hist P_Store P_World P_Compile P_Evolve P_Rel P_Perm P_Refine SpecRec P_Rec Props_Rec SpecSched SpecSim SpecSafe SpecGoes SpecGoes2 SpecLint P_Safe P_Safe3 P_Goes4 P_Goes6 SpecOrder SpecSized SpecAgain SpecRun
  P_Same P_Same2 P_Same3 Props_Goes Props_Same SpecTable P_Table Ex_Models Props_Again.
Local Open Scope nat_scope.

Lemma ends_length {D} `{NumOps D} (g : cfg D) fuel cs s ss : ends g fuel cs s ss -> length ss = length cs.
Proof. revert s ss. induction cs as [|[[t lo] hi] cs IH]; intros s [|s1 ss]; cbn; try done. intros [_ He]. f_equal. by eapply IH. Qed.
Lemma run_first {D} `{NumOps D} (g : cfg D) fuel t lo hi d : run g fuel t lo hi (new_sim d) = init g t (new_sim d).
Proof. reflexivity. Qed.
Lemma zip_map {A B C} (f : A -> C) (h : A -> B -> C) (l : list A) (k : list B) : length k = length l -> (forall a b, h a b = f a) -> zip_with h l k = map f l.
Proof. revert k. induction l as [|a l IH]; intros [|b k]; cbn; try done. intros [= Hl] Hf. rewrite Hf. f_equal. by apply IH. Qed.
Lemma map_zip_l {A B C E} (f : C -> E) (h : A -> B -> C) (g : A -> E) l k : length k = length l -> (forall a b, f (h a b) = g a) -> map f (zip_with h l k) = map g l.
Proof. revert k. induction l as [|a l IH]; intros [|b k]; cbn; try done. intros [= Hl] Hf. rewrite Hf. f_equal. by apply IH. Qed.
Lemma map_zip_r {A B C E} (f : C -> E) (h : A -> B -> C) (g : B -> E) l k : length k = length l -> (forall a b, f (h a b) = g b) -> map f (zip_with h l k) = map g k.
Proof. revert k. induction l as [|a l IH]; intros [|b k]; cbn; try done. intros [= Hl] Hf. rewrite Hf. f_equal. by apply IH. Qed.

(** The exported file of a table. *)
Lemma table_export {D} `{NumOps D} sigs order calls (ss : list (simst D)) h : table sigs calls ss h -> length ss = length calls -> sigs ≠ [] -> (forall x, x ∈ order -> x ∈ sigs) ->
  export_csv order h = Ok (lines order calls ss) h.
Proof.
  intros (_ & Ht & Hm & _) Hl Hn Ho. unfold export_csv, bnd, gets. cbn [id].
  assert (hist_empty h = false) as ->.
  { apply bool_decide_false. intros E. destruct sigs as [|z zs]; [done|]. specialize (Hm z (elem_of_list_here _ _)). by rewrite E, lookup_empty in Hm. }
  rewrite Ht, map_length.
  assert (forall n k h', n + k = length calls -> export_rows h (seq k n) order h' = Ok (drop k (lines order calls ss)) h') as Hk.
  { assert (forall k s h', ss !! k = Some s -> row_cells h k order h' = Ok (concat (map (fun x => map Some (numbers (s_store s) x)) order)) h') as Hr.
    { intros k s h' Hs. clear Hn. induction order as [|x order IH]; [done|]. cbn [row_cells map concat]. rewrite (Hm x) by apply Ho, elem_of_list_here. rewrite lookup_map, Hs. cbn [fmap option_fmap option_map].
      unfold bnd. rewrite IH by (intros z Hz; by apply Ho, elem_of_list_further). done. }
    assert (length (lines order calls ss) = length calls) as Hll by (unfold lines; rewrite zip_with_length; lia).
    induction n as [|n IH]; intros k h' Hnk.
    - cbn. by rewrite drop_ge by lia.
    - cbn [seq export_rows]. rewrite Ht, lookup_map. destruct (lookup_lt_is_Some_2 calls k ltac:(lia)) as [c Hc]. destruct (lookup_lt_is_Some_2 ss k ltac:(lia)) as [s Hs]. rewrite Hc. cbn [fmap option_fmap option_map].
      unfold bnd. rewrite (Hr k s h' Hs), IH by lia. unfold ret. f_equal. symmetry. apply drop_S. unfold lines. by rewrite lookup_zip_with, Hc, Hs. }
  rewrite Hk by lia. done.
Qed.

(** Simulating and recording a checked model: recording has no influence, and the history
    is the table of the times and of the values after each call, in which no signal that
    the client or the blocks assign is missing; so is the exported file. *)
Theorem C81_table : forall D `{NumOps D} `{!NumOrd D} `{!NumAdd D} w b (g : cfg D) ins1 ins2 fuel grow sigs t0 lo0 hi0 cs,
  checked w b g ins1 ins2 -> permitted g t0 cs -> (0 < grow)%N -> sigs ≠ [] -> (forall x, x ∈ sigs -> value_sig (initial_store w) x) -> (N.of_nat (S (length cs)) + grow <= two32)%N ->
  let calls := (t0, lo0, hi0) :: cs in
  match program g fuel t0 cs (new_sim (initial_dyn w)) with
  | Ok _ s => exists h ss, record_program g fuel grow sigs calls (new_sim (initial_dyn w)) = Ok h s /\ ends g fuel calls (new_sim (initial_dyn w)) ss /\ Forall (settled w g ins1 ins2) ss /\
      table sigs calls ss h /\ forall order, (forall x, x ∈ order -> x ∈ sigs) -> export_csv order h = Ok (lines order calls ss) h
  | OOF => record_program g fuel grow sigs calls (new_sim (initial_dyn w)) = OOF
  | Exn _ _ | UB _ => False
  end.
Proof.
  intros D ? ? ? w b g ins1 ins2 fuel grow sigs t0 lo0 hi0 cs Hc Hp Hg Hn Hv Hlt calls. assert (0 < grow < two32)%N as Hg2 by lia.
  set (sg := picked (map PTrack sigs)). assert (NoDup sg) as Hnd by apply picked_nodup. assert (forall x, x ∈ sg <-> x ∈ sigs) as Hsg by (intros x; apply picked_tracks).
  assert (sg ≠ []) as Hne. { intros E. destruct sigs as [|x ?]; [done|]. specialize (proj2 (Hsg x) (elem_of_list_here _ _)). rewrite E. apply not_elem_of_nil. }
  assert (forall x, x ∈ sg -> exists k, sig_kinds w x = Some k /\ k ≠ KBus) as Hval.
  { intros x Hx. apply Hsg in Hx. destruct (Hv x Hx) as (c & Ec & Hb). exists (c_kind c). split; [|done]. rewrite <- kinds_of_world. unfold kof. by rewrite Ec. }
  destruct (checked_init w b g ins1 ins2 Hc t0) as (s0 & E0 & Hr0 & Et0). unfold program, bnd at 1. rewrite E0.
  assert (holds grow sg (kinds_def w) [] (tracking grow sg) /\ aligned grow (tracking (D:=D) grow sg)) as [Hh Ha].
  { split; [split; cbn; try done; [by left|lia|]; intros i; unfold time_ok; cbn; intros x Hx; by apply lookup_replicate in Hx as [-> _]|].
    split; cbn; [intros _; apply replicate_length|]. intros s m Hm. by rewrite lookup_empty in Hm. }
  destruct (record_one w g ins1 ins2 grow sg Hg2 Hne Hnd Hval t0 s0 [] [] _ Hr0 ltac:(cbn; lia) counted_nil Hh Ha) as (h1 & E1 & Hco1 & Hh1 & Ha1). cbn [length app] in *.
  assert (forall R, (h' <~ record_loop g fuel 1 cs h1 ;; ret (shrink_to_fit h')) s0 = R -> record_program g fuel grow sigs calls (new_sim (initial_dyn w)) = R) as ER.
  { change (N.of_nat 0) with 0%N in E1.
    assert (record_loop g fuel 0 calls (tracking grow sg) (new_sim (initial_dyn w)) = record_loop g fuel 1 cs h1 s0) as EL.
    { unfold calls. cbn [record_loop]. unfold bnd, gets. rewrite run_first, E0, E1. reflexivity. }
    intros R <-. unfold record_program, bnd, gets. unfold in_hist. pose proof (tracks (g_dbg g) (s_store (new_sim (initial_dyn w))) grow sigs Hv) as Et. unfold bnd in Et. rewrite Et. fold sg. by rewrite EL. }
  rewrite <- Et0 in Hr0, Hp. pose proof (record_ok w b g ins1 ins2 Hc grow sg Hg2 Hne Hnd Hval fuel cs s0 _ [(t0, s_store s0)] h1 Hr0 Hp ltac:(cbn; lia) Hco1 Hh1 Ha1) as Hrec. cbn [length] in Hrec. change (N.of_nat 1) with 1%N in Hrec.
  destruct (drive g fuel cs s0) as [[] s| | |]; try done.
  - destruct Hrec as (h' & ss & os' & E2 & He & Hse & Hco & Hh' & Ha'). pose proof (ends_length _ _ _ _ _ He) as Hl.
    assert (table sigs calls (s0 :: ss) (shrink_to_fit h')) as Htab.
    { destruct (counted_table grow sg (kinds_def w) Hg2 Hne Hnd os' ([(t0, s_store s0)] ++ zip_with (fun c s => (c.1.1, s_store s)) cs ss) h' ltac:(done) Hco Hh' Ha') as (T1 & T2 & T3 & T4). split; [|split; [|split]].
      - rewrite T1, app_length, zip_with_length. unfold calls. cbn. lia.
      - rewrite T2, map_app. unfold calls. cbn [map fst app]. f_equal. apply map_zip_l; [done|]. done.
      - intros x Hx. rewrite T3 by by apply Hsg. rewrite map_app. cbn [map snd app]. f_equal. f_equal. apply map_zip_r; [done|]. done.
      - intros x Hx. apply T4. by rewrite Hsg. }
    exists (shrink_to_fit h'), (s0 :: ss). split; [apply ER; unfold bnd; by rewrite E2|]. split; [by split|]. split; [constructor; [by eapply ready_settled|done]|]. split; [done|].
    intros order Ho. eapply table_export; [done|cbn; lia|done|done].
  - apply ER. unfold bnd. by rewrite Hrec.
Qed.
Print Assumptions C81_table.

(** ** Kinds, builds, orders *)
Lemma sample_mle {D} `{NumOps D} (σ : store D) s : mle (sample true σ s) (sample false σ s).
Proof.
  intros h v h'. unfold sample. destruct (σ !! s) as [c|]; [|done]. destruct (c_asg c); [|done]. destruct (get_value true s σ) as [x σ'| | |] eqn:E; try done.
  by rewrite (get_value_mle s _ _ _ E).
Qed.
Lemma update_mle {D} `{NumOps D} (σ : store D) k t : mle (update true σ k t) (update false σ k t).
Proof.
  unfold update. apply mle_bnd; [apply mle_refl|intros e]. apply mle_bnd; [apply mle_refl|intros sg]. destruct (e && _); [apply mle_refl|].
  do 4 (apply mle_bnd; [apply mle_refl|intros ?]). apply mle_bnd; [|intros ?; apply mle_refl]. apply mle_forM. intros s. unfold update_sig. apply mle_bnd; [apply mle_refl|intros h].
  destruct (hi_map h !! s); [|apply mle_refl]. apply mle_bnd; [apply sample_mle|intros v]. apply mle_refl.
Qed.
Lemma track_mle {D} `{NumOps D} (σ : store D) s : mle (track true σ s) (track false σ s).
Proof. unfold track. apply mle_bnd; [apply mle_refl|intros e]. apply mle_bnd; [apply mle_debug|intros []]. apply mle_refl. Qed.
Lemma in_hist_mle {D} {A} (m1 m2 : M (hist D) A) h (s s' : simst D) h' s1 : mle m1 m2 -> in_hist m1 h s = Ok h' s1 -> in_hist m2 h s' = Ok h' s' /\ s1 = s.
Proof. intros Hm. unfold in_hist. destruct (m1 h) as [a h1| | |] eqn:E; try done. rewrite (Hm _ _ _ E). by intros [= <- <-]. Qed.
Lemma drive_app {D} `{NumOps D} (g : cfg D) fuel cs1 cs2 s : drive g fuel (cs1 ++ cs2) s = (drive g fuel cs1 ;;; drive g fuel cs2) s.
Proof. revert s. induction cs1 as [|[[t lo] hi] cs IH]; intros s; [done|]. cbn [drive app]. unfold bnd in *. destruct (run g fuel t lo hi s) as [[] s1| | |]; [apply IH|done..]. Qed.
Lemma program_snoc {D} `{NumOps D} (g : cfg D) fuel t0 cs t lo hi s0 s : program g fuel t0 cs s0 = Ok tt s -> program g fuel t0 (cs ++ [(t, lo, hi)]) s0 = run g fuel t lo hi s.
Proof.
  unfold program, bnd. destruct (init g t0 s0) as [[] s1| | |]; try done. rewrite drive_app. unfold bnd. intros ->. cbn [drive]. unfold bnd, ret. by destruct (run g fuel t lo hi s) as [[]| | |].
Qed.
Lemma permitted_pre {D} `{NumOps D} (g : cfg D) tp cs1 cs2 : permitted g tp (cs1 ++ cs2) -> permitted g tp cs1.
Proof. revert tp. induction cs1 as [|[[t lo] hi] cs IH]; intros tp; [done|]. cbn. intros [Ha Hp]. split; [done|]. by eapply IH. Qed.

(** The table is the same for every kind of simulator, build and iteration order. *)
Theorem C81_same : forall D `{NumOps D} `{!NumOrd D} `{!NumAdd D} w b (g : cfg D) ins1 ins2 dbg m it fuel grow sigs t0 lo0 hi0 cs h s,
  built true w -> checked w b g ins1 ins2 -> checked w b (with_mode m g) ins1 ins2 -> permitted g t0 cs -> (forall l, it l ≡ₚ l) ->
  (forall stp, g_stepper g = Some stp -> stepper_rel stp /\ stepper_ok stp /\ stepper_perm stp /\ stepper_mono stp) -> (g_mode g ≠ m -> g_mode g = MFast \/ m = MFast -> calm w g) ->
  record_program g fuel grow sigs ((t0, lo0, hi0) :: cs) (new_sim (initial_dyn w)) = Ok h s ->
  exists s', record_program (variant dbg m it g) fuel grow sigs ((t0, lo0, hi0) :: cs) (new_sim (initial_dyn w)) = Ok h s' /\ same_results s s'.
Proof.
  intros D ? ? ? w b g ins1 ins2 dbg m it fuel grow sigs t0 lo0 hi0 cs h s Hb H1 H2 Hp Hit Hstp Hcalm.
  pose proof (cd_dbg _ _ _ _ _ H1) as Hd. set (g' := variant dbg m it g).
  assert (forall cs', permitted g t0 cs' -> forall s, program g fuel t0 cs' (new_sim (initial_dyn w)) = Ok tt s -> exists s', program g' fuel t0 cs' (new_sim (initial_dyn w)) = Ok tt s' /\ same_results s s') as Hsame.
  { intros cs' Hp' s' E. by apply (C77_same D w b g ins1 ins2 dbg m it fuel t0 cs' s' Hb H1 H2 Hp' Hit Hstp Hcalm E). }
  assert (forall (σ : store D) k t, mle (update (g_dbg g) σ k t) (update (g_dbg g') σ k t)) as Hup by (intros; rewrite Hd; cbn; destruct dbg; [apply mle_refl|apply update_mle]).
  assert (forall cs2 cs1 h k s s' h1 s1, program g fuel t0 cs1 (new_sim (initial_dyn w)) = Ok tt s -> program g' fuel t0 cs1 (new_sim (initial_dyn w)) = Ok tt s' -> same_results s s' -> permitted g t0 (cs1 ++ cs2) ->
    record_loop g fuel k cs2 h s = Ok h1 s1 -> exists s1', record_loop g' fuel k cs2 h s' = Ok h1 s1' /\ same_results s1 s1') as Hloop.
  { induction cs2 as [|[[t lo] hi] cs2 IH]; intros cs1 h2 k z z' h1 z1 E1 E2 Hs Hpe; [intros [= <- <-]; by exists z'|]. cbn [record_loop]. unfold bnd, gets.
    destruct (run g fuel t lo hi z) as [[] z2| | |] eqn:E3; try done. pose proof (program_snoc g fuel t0 cs1 t lo hi _ z E1) as E4. rewrite E3 in E4.
    assert (permitted g t0 ((cs1 ++ [(t, lo, hi)]) ++ cs2)) as Hpe' by by rewrite <- app_assoc.
    destruct (Hsame _ (permitted_pre _ _ _ _ Hpe') z2 E4) as (z2' & E5 & Hs2). pose proof E5 as E6. rewrite (program_snoc g' fuel t0 cs1 t lo hi _ z' E2) in E6. rewrite E6.
    destruct (in_hist (update (g_dbg g) (s_store z2) k t) h2 z2) as [h3 z3| | |] eqn:E7; try done.
    assert (s_store z2' = s_store z2) as -> by apply Hs2. destruct (in_hist_mle _ _ h2 z2 z2' h3 z3 (Hup (s_store z2) k t) E7) as [-> ->].
    by apply (IH _ h3 (uadd k 1) z2 z2' h1 z1 E4 E5 Hs2 Hpe'). }
  unfold record_program. unfold bnd at 1, gets at 1. unfold bnd at 1. intros E.
  destruct (in_hist (forM sigs _) (new_hist grow) (new_sim (initial_dyn w))) as [h0 z0| | |] eqn:E0; try done.
  apply (in_hist_mle _ (forM sigs (fun s => bnd (track (g_dbg g') (s_store (new_sim (initial_dyn w))) s) (fun _ => ret tt))) _ _ (new_sim (initial_dyn w))) in E0 as [E0 ->].
  2:{ apply mle_forM. intros x. apply mle_bnd; [|intros ?; apply mle_refl]. rewrite Hd. cbn. destruct dbg; [apply mle_refl|apply track_mle]. }
  unfold bnd at 1, gets at 1. unfold bnd at 1. rewrite E0. revert E. cbn [record_loop]. unfold bnd, gets. rewrite !run_first.
  destruct (init g t0 (new_sim (initial_dyn w))) as [[] z| | |] eqn:E1; try done.
  assert (program g fuel t0 [] (new_sim (initial_dyn w)) = Ok tt z) as E2 by (unfold program, bnd; by rewrite E1). destruct (Hsame [] I z E2) as (z' & E3 & Hs).
  assert (init g' t0 (new_sim (initial_dyn w)) = Ok tt z') as -> by (revert E3; unfold program, bnd; by destruct (init g' t0 (new_sim (initial_dyn w))) as [[]| | |]).
  destruct (in_hist (update (g_dbg g) (s_store z) 0 t0) h0 z) as [h3 z3| | |] eqn:E7; try done.
  assert (s_store z' = s_store z) as -> by apply Hs. destruct (in_hist_mle _ _ h0 z z' h3 z3 (Hup (s_store z) 0%N t0) E7) as [-> ->].
  destruct (record_loop g fuel (uadd 0 1) cs h3 z) as [h4 z4| | |] eqn:E8; try done. intros [= <- <-].
  destruct (Hloop cs [] h3 (uadd 0 1) z z' h4 z4 E2 E3 Hs Hp E8) as (z4' & -> & Hs4). by exists z4'.
Qed.
Print Assumptions C81_same.

(** ** Examples *)
(** The model of C75 once more, four of its signals tracked, one of them twice; matrices that
    grow by two rows. *)
Example C81_ex : forall m, checked ex13_world 0 (ex75_cfg m) [] [] /\ permitted (ex75_cfg m) 0%Q ex75_calls /\ forall x, x ∈ [0; 1; 2; 0; 3] -> value_sig (initial_store ex13_world) x.
Proof.
  intros m. split; [apply C75_ex|]. split; [apply C75_ex|].
  assert (map (fun x => match initial_store ex13_world !! x with Some c => match c_kind c with KBus => true | _ => false end | None => true end) [0; 1; 2; 0; 3] = [false; false; false; false; false]) as Hv by (vm_compute; reflexivity).
  revert Hv. generalize (initial_store ex13_world). intros σ Hv x Hx.
  assert (match σ !! x with Some c => match c_kind c with KBus => true | _ => false end | None => true end = false) as Hk.
  { cbn [map] in Hv. injection Hv as V0 V1 V2 V3 V4. repeat (apply elem_of_cons in Hx as [->|Hx]; [assumption|]). by apply elem_of_nil in Hx. }
  destruct (σ !! x) as [c|] eqn:E; [|done]. exists c. split; [done|]. intros Eb. by rewrite Eb in Hk.
Qed.
(** The exported file, from a FastSimulator and from the release build of a Simulator. *)
Definition csv81 (g : cfg Q) : option (list (list (option Q))) :=
  match record_program g 50 2 [0; 1; 2; 0; 3] ((0, 0, 0) :: ex75_calls)%Q (new_sim (initial_dyn ex13_world)) with
  | Ok h _ => match export_csv [3; 0; 1; 2] h with Ok l _ => Some (map (map (option_map Qred)) l) | _ => None end
  | _ => None
  end.
Example C81_ex_csv : csv81 (ex75_cfg MFast) = Some [[Some 0; Some 9; Some 5; Some (-10); Some 7]; [Some (1 # 2); Some (-25 # 4); Some (15 # 8); Some (-15 # 4); Some 5]; [Some 1; Some (-75 # 32); Some (45 # 64); Some (-45 # 32); Some (15 # 8)]]%Q
  /\ csv81 (variant false MDefault id (ex75_cfg MFast)) = csv81 (ex75_cfg MFast).
Proof. split; vm_compute; reflexivity. Qed.
