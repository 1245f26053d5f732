(** The sizes of states and derivatives: C64. *)
From stdpp Require Import prelude gmap strings.
From Coq Require Import ZArith QArith.
From Verif Require Import Num NumQ Res Name Store Leaf Sched Stepper Sim World Api SpecSched P_Store P_Compile P_Simulated P_Evolve P_Rel P_Rel2 SpecHist P_Trace Ex_Models SpecRun P_Run Props_Run
  P_Pack Props_Pack SpecAgain P_Redo Props_Again P_Field P_Path SpecSized P_Sized.
Local Open Scope nat_scope.

(** ** C64.  If every operation that built the model returned, a derivative has the
    kind of its state ... *)
Theorem C64_kinds : forall D `{NumOps D} dbg (w : world D), built dbg w -> derivs_alike w.
Proof. intros D ? dbg w. apply built_alike. Qed.

Lemma alike_fit {D} `{NumOps D} (w : world D) : derivs_alike w -> derivs_fit (initial_store w).
Proof.
  intros Ha z c d Hc Hd. pose proof (initial_lookup w z) as E. rewrite Hc in E.
  destruct (w_sigs w !! z) as [o|] eqn:Eo; [|done]. destruct (is_bus (so_kind o)) eqn:Eb; [done|]. injection E as ->. cbn in Hd.
  destruct (Ha z o d Eo Hd) as (od & Hod & Ek). unfold sig_size. rewrite Hc, initial_lookup, Hod, Ek, Eb. done.
Qed.

(** ... so the derivatives fill the array of derivatives exactly: an evaluation of the
    derivatives never writes outside of it (whatever is undefined about an evaluation
    comes from the blocks), and what it returns has one element per state variable. *)
Section writes.
  Context {D : Type} `{NumOps D} (g : cfg D).
  Definition inside {S A} (m : M S A) : Prop := forall s, m s ≠ UB UIndex.
  Lemma inside_bnd {S A B} (m : M S A) (k : A -> M S B) : inside m -> (forall a, inside (k a)) -> inside (bnd m k).
  Proof. intros Hm Hk s. unfold bnd. pose proof (Hm s) as Hs. destruct (m s) as [a s'| | |]; [apply Hk|done|congruence|done]. Qed.
  Lemma inside_value z : inside (get_value (D:=D) (g_dbg g) z).
  Proof. intros σ. unfold get_value. destruct (σ !! z) as [c|]; [|done]. repeat (destruct (_ && _); [done|]). by destruct (c_val c). Qed.
  Lemma inside_scalar z : inside (get_scalar g z).
  Proof. apply inside_bnd; [apply inside_value|intros v σ]. by destruct v. Qed.
  Lemma inside_array z : inside (get_array g z).
  Proof. apply inside_bnd; [done|intros n]. apply inside_bnd; [apply inside_value|intros v σ]. destruct v; try done. by destruct (Nat.eqb _ _). Qed.
  Lemma inside_deriv (f : nat -> M (store D) (list D)) z : (forall z, inside (f z)) -> inside (deriv_of f z).
  Proof. intros Hf. apply inside_bnd; [done|intros o]. destruct o; [apply Hf|done]. Qed.
  Lemma inside_collect (f : nat -> M (store D) (list D)) zs : (forall z, inside (f z)) -> inside (collect f zs).
  Proof. intros Hf. induction zs as [|z zs IH]; cbn [collect]; [done|]. apply inside_bnd; [apply Hf|intros x]. by apply inside_bnd. Qed.

  Lemma deriv_lengths (get : nat -> M (store D) (list D)) zs σ ys n :
    (forall z y, get z σ = Ok y σ -> length y = n z) -> (forall z c d, z ∈ zs -> σ !! z = Some c -> c_deriv c = Some d -> n d = sig_size σ z) ->
    Forall2 (fun z y => deriv_of get z σ = Ok y σ) zs ys -> length (concat ys) = width σ zs.
  Proof.
    intros Hget. intros Hn Hf. induction Hf as [|z y zs ys Hzy Hf IH]; [done|]. cbn [concat]. rewrite app_length, IH by (intros z' c d Hz'; apply Hn; by apply elem_of_list_further).
    unfold deriv_of, bnd, gets in Hzy. destruct (σ !! z) as [c|] eqn:Ec; [|done]. destruct (c_deriv c) as [d|] eqn:Ed; [|done].
    rewrite (Hget _ _ Hzy), (Hn z c d); [done|apply elem_of_list_here|done|done].
  Qed.
  (** What minor_cb does after evaluating the model. *)
  Definition read_derivs : M (simst D) (list D) :=
    ss <~ gets s_scal ;;
    aa <~ gets s_arr ;;
    x <~ on_store' (x1 <~ collect (deriv_of (get_scalar g)) ss ;;
                    x2 <~ collect (deriv_of (get_array g)) aa ;; ret (x1 ++ x2)) ;;
    dv <~ gets s_dv ;;
    match write_prefix x dv with
    | Some r => modify (put_dv r) ;;; ret r
    | None => undef UIndex
    end.
  Lemma read_inside s : packed g s -> derivs_fit (s_store s) ->
    read_derivs s ≠ UB UIndex /\ forall dx s', read_derivs s = Ok dx s' -> length dx = length (s_sv s).
  Proof.
    intros Hp Hfit.
    enough (forall r, read_derivs s = r -> r ≠ UB UIndex /\ forall dx s', r = Ok dx s' -> length dx = length (s_sv s)) as Hr by (by apply Hr).
    intros r. unfold read_derivs. unfold bnd at 1, gets at 1. unfold bnd at 1, gets at 1. unfold bnd at 1.
    set (m := bnd (collect (deriv_of (get_scalar g)) (s_scal s)) _).
    assert (inside m) as Hin.
    { apply inside_bnd; [apply inside_collect; intros z; apply inside_deriv; apply inside_scalar|intros x1].
      apply inside_bnd; [apply inside_collect; intros z; apply inside_deriv; apply inside_array|done]. }
    specialize (Hin (s_store s)).
    destruct (m (s_store s)) as [y σ'|e σ'|u|] eqn:Em;
      [|unfold on_store', on_core', on_dyn, on_core, on_store, lift; unfold s_store, s_core in Em; cbn; rewrite Em; intros <-; (split; [congruence|done])..].
    rewrite (on_store_ok m s y σ' Em). unfold m, bnd in Em.
    destruct (collect _ (s_scal s) (s_store s)) as [x1 σ1| | |] eqn:F1; try done.
    apply collect_inv in F1 as (-> & ys1 & -> & Hy1); [|intros z y' σa σb; apply deriv_same; intros ? ? ? ? E; by apply get_scalar_inv in E as [? _]].
    destruct (collect _ (s_arr s) (s_store s)) as [x2 σ2| | |] eqn:F2; try done.
    apply collect_inv in F2 as (-> & ys2 & -> & Hy2); [|intros z y' σa σb; apply deriv_same; intros ? ? ? ? E; by apply get_array_inv in E as [? _]].
    injection Em as <- <-.
    assert (length (concat ys1) = width (s_store s) (s_scal s)) as L1.
    { eapply (deriv_lengths _ _ _ _ (fun _ => 1)); [| |exact Hy1].
      - intros z y' E. by apply get_scalar_inv in E as (_ & d & -> & _).
      - intros z c d Hz Hc _. destruct (pk_scal _ _ Hp z Hz) as (c' & Hc' & Hk). unfold sig_size. by rewrite Hc', Hk. }
    assert (length (concat ys2) = width (s_store s) (s_arr s)) as L2.
    { eapply (deriv_lengths _ _ _ _ (sig_size (s_store s))); [| |exact Hy2].
      - intros z y' E. by apply get_array_inv in E as (_ & El & _).
      - intros z c d Hz Hc Hd. by eapply Hfit. }
    unfold bnd at 1, gets at 1.
    match goal with |- context [write_prefix ?a ?b] => assert (write_prefix a b = Some a) as -> end.
    { apply P_Pack.write_all. cbn. rewrite app_length, L1, L2, <- width_app. by rewrite (pk_dv _ _ Hp). }
    unfold bnd, modify, ret. intros <-. split; [done|]. intros dx s' [= <- <-]. by rewrite app_length, L1, L2, <- width_app, (pk_sv _ _ Hp).
  Qed.
  Lemma minor_inside t x s : packed g s -> derivs_fit (s_store s) -> length x = length (s_sv s) ->
    (minor_cb g t x s = UB UIndex -> exists s1, reset_sv g x s = Ok tt s1 /\ process_model g t false false s1 = UB UIndex) /\
    (forall dx s', minor_cb g t x s = Ok dx s' -> length dx = length x).
  Proof.
    intros Hp Hfit Hl. destruct (reset_ok g x s Hp Hl) as (s1 & E1 & _).
    pose proof (pres_reset_sv g x s) as V1. rewrite E1 in V1. pose proof (packed_reset g x s tt s1 Hp E1) as Hp1.
    pose proof (vecs_reset_sv g x s) as Y1. rewrite E1 in Y1.
    change (minor_cb g t x) with (reset_sv g x ;;; process_model g t false false ;;; read_derivs).
    assert ((reset_sv g x ;;; process_model g t false false ;;; read_derivs) s = (process_model g t false false ;;; read_derivs) s1) as ->.
    { unfold bnd at 1. by rewrite E1. }
    unfold bnd. destruct (process_model g t false false s1) as [[] s4| |u|] eqn:E4; [|done|split; [intros [= ->]; by exists s1|done]|done].
    pose proof (pres_process_model g t false false s1) as V4. rewrite E4 in V4. pose proof (packed_process g _ _ _ _ _ _ Hp1 E4) as Hp4.
    pose proof (vecs_process_model g t false false s1) as Y4. rewrite E4 in Y4.
    assert (evo g s s4) as V04 by (by etrans). pose proof (ev_dyn _ _ _ V04) as [Hsh _]. change (shape (g_dbg g) (s_store s) (s_store s4)) in Hsh.
    destruct (read_inside s4 Hp4 (fit_shape _ _ _ Hsh Hfit)) as [R1 R2]. split; [done|].
    intros dx s' E. rewrite (R2 _ _ E), Hl. destruct Y1 as (Y1 & _), Y4 as (Y4 & _). by rewrite Y4, Y1.
  Qed.
End writes.
Theorem C64_writes : forall D `{NumOps D} dbg w b (g : cfg D) s t x, built dbg w -> session_of w b g s -> length x = length (s_sv s) ->
  (minor_cb g t x s = UB UIndex -> exists s1, reset_sv g x s = Ok tt s1 /\ process_model g t false false s1 = UB UIndex) /\
  (forall dx s', minor_cb g t x s = Ok dx s' -> length dx = length x).
Proof.
  intros D ? dbg w b g s t x Hb Hs Hl. destruct (session_of_packed _ _ _ _ Hs) as [Hp _]. apply minor_inside; [done| |done].
  eapply fit_shape; [by eapply session_shape|]. by eapply alike_fit, built_alike.
Qed.

Lemma built_all {D} `{NumOps D} dbg (os : list (wop D)) w0 w u : built dbg w0 -> Forall wop_ok os -> exec_all dbg os w0 = Ok u w -> built dbg w.
Proof.
  intros H0 Hok. revert w0 H0. induction Hok as [|o os Ho Hos IH]; intros w0 H0 He; cbn in He; [by injection He as <- <-|].
  unfold bnd in He. destruct (exec dbg o w0) as [x w1| | |] eqn:E; try done. eapply IH; [|exact He]. by eapply bu_ok.
Qed.

(** A client that catches the exception of a connect goes on with a state whose
    derivative is longer: here the Integrator of x (2 elements) is connected to d (3
    elements), which throws.  A run then writes 3 derivatives into an array of 2. *)
Definition ex20_ops1 : list (wop Q) :=
  [ ONewSig (KArray 3) "d"; ONewSig (KArray 2) "x"; ONewBus [0] ""; ONewBus [1] ""; ONewBus [] "";
    ONewBlock CSubmodel LNone None "root" NoIOLimit NoIOLimit;
    ONewBlock (CInteg TyA) (LInteg (VA [1; 2]%Q) false) (Some 0) "int" 1 1;
    ONewBlock (CConst TyA (VA [1; 1; 1]%Q)) LNone (Some 0) "const" 0 1;
    OConnect 2 4 2 ].
Definition ex20_world1 : world Q := world_of true ex20_ops1.
Definition ex20_world : world Q := match exec true (OConnect 1 2 3) ex20_world1 with Exn _ w => w | _ => ex20_world1 end.
Lemma ex20_throws : exec true (OConnect 1 2 3) ex20_world1 = Exn ESize ex20_world.
Proof. vm_compute. reflexivity. Qed.
Lemma ex20_reach1 : wreach true ex20_world1.
Proof. reach_ops ex20_world1 ex20_ops1. Qed.
Lemma ex20_reach : wreach true ex20_world.
Proof. eapply wr_exn; [exact ex20_reach1| |exact ex20_throws]. exact I. Qed.
Definition ex20_tree : tree Q := tree_of ex20_world.
Definition ex20_cfg (dbg : bool) : cfg Q := Cfg dbg MDefault ex20_tree None (fun _ => PRet tt) (Some euler) (fun x => x) 0%Q.
Definition ex20_new : simst Q := new_sim (initial_dyn ex20_world).
Definition ex20_0 dbg : simst Q := st_of ex20_new (init (ex20_cfg dbg) 0%Q ex20_new).
Lemma ex20_model : compile_model ex20_world 0 = Some ex20_tree.
Proof. vm_compute. reflexivity. Qed.
Lemma ex20_session dbg : is_ok (init (ex20_cfg dbg) 0%Q ex20_new) = true -> session_of ex20_world 0 (ex20_cfg dbg) (ex20_0 dbg).
Proof.
  intros E. split; [exists true; exact ex20_reach|]. split; [exact ex20_model|]. split; [intros l; reflexivity|].
  split. { intros stp [= <-]. split; [apply euler_ok|apply euler_rel]. }
  exists (ex20_cfg dbg), ex20_new. split; [|apply (se_init _ _ 0%Q); apply is_ok_init; exact E].
  apply so_first; [reflexivity|reflexivity|]. intros stp [= <-]. apply euler_rel.
Qed.
Theorem C64_refuted : exists (w0 w : world Q) o e b, built true w0 /\ wop_ok o /\ exec true o w0 = Exn e w /\ ~ derivs_alike w /\
  forall dbg, exists g s fuel t lo hi, g_dbg g = dbg /\ session_of w b g s /\ nltb (s_tprev s) t = true /\ nltb (n0) lo = true /\ nltb (lo) hi = true /\
    run g fuel t lo hi s = UB UIndex.
Proof.
  exists ex20_world1, ex20_world, (OConnect 1 2 3), ESize, 0. split.
  { unfold ex20_world1, world_of. destruct (exec_all true ex20_ops1 empty_world) as [u w| | |] eqn:E; [|constructor..].
    eapply built_all; [constructor| |exact E]. unfold ex20_ops1. repeat (apply Forall_cons; split; [cbn; eauto|]); apply Forall_nil; done. }
  split; [exact I|]. split; [exact ex20_throws|]. split.
  { intros Ha. assert (exists o, w_sigs ex20_world !! 1 = Some o /\ so_deriv o = Some 0 /\ so_kind o = KArray 2) as (o & Ho & Hd & Hk).
    { eexists. split; [vm_compute; reflexivity|]. split; vm_compute; reflexivity. }
    destruct (Ha 1 o 0 Ho Hd) as (od & Hod & E). assert (so_kind <$> w_sigs ex20_world !! 0 = Some (KArray 3)) as E0 by (vm_compute; reflexivity).
    rewrite Hod in E0. cbn in E0. rewrite E, Hk in E0. discriminate E0. }
  intros dbg. exists (ex20_cfg dbg), (ex20_0 dbg), 10, 1%Q, (1#100)%Q, 10%Q. split; [reflexivity|]. split; [apply ex20_session; destruct dbg; vm_compute; reflexivity|].
  split; [destruct dbg; vm_compute; reflexivity|]. split; [vm_compute; reflexivity|]. split; [vm_compute; reflexivity|]. destruct dbg; vm_compute; reflexivity.
Qed.

(** The model of Props_Pack.v has two scalar states and one array state. *)
Example C64_ex : built true ex9_world /\ session_of ex9_world 0 (ex9_cfg true MDefault) ex9_1 /\ length (s_sv ex9_1) = 4 /\
  match minor_cb (ex9_cfg true MDefault) 2%Q [10; 20; 30; 40]%Q ex9_1 with Ok dx _ => dx = [1; 1; 1; 2]%Q | _ => False end.
Proof.
  split; [|split; [exact ex9_1_session|split; vm_compute; reflexivity]].
  unfold ex9_world, world_of. destruct (exec_all true ex9_ops empty_world) as [u w| | |] eqn:E; [|constructor..].
  eapply built_all; [constructor| |exact E]. unfold ex9_ops. repeat (apply Forall_cons; split; [cbn; eauto|]); apply Forall_nil; done.
Qed.
Print Assumptions C64_kinds.
Print Assumptions C64_writes.
Print Assumptions C64_refuted.
