(** An expression whose normal form is never found: 324/(648 + 324*x). *)
From Verif Require Import SimplWitness DivHang LaurentSpec DivSpec LaurentOrder LaurentExpand LaurentIdent RingTerm DivExact DivRun DivApi DivUser FuelMono FuelApi ApiSpec ApiModel ExprProofs NumInt NumberProofs World RPow RunSpec NumberSpec PolyModel NormalModel PropExpand PropRing PropDivide NormUser DiffModel.
From Coq Require Import Lia Lra Bool.
From Verif Require Import Run LaurentSpec.
Open Scope Z_scope.

(** What an execution returns, others return as well, if they end. *)
Lemma only_at' {A} (f : oper -> nat -> res A) a l F k n0 : (forall W W' n n', (n <= n')%nat -> ople W W' -> rle (f W n) (f W' n')) ->
  f W0 40%nat = Ok a l -> only (f (world refSys F k) n0) (fun x => x = a).
Proof.
  intros M E. destruct (world_max refSys F 40 k 40) as [H H0].
  pose proof (M _ _ n0 (Nat.max n0 40) ltac:(lia) H) as R. pose proof (M _ _ 40%nat (Nat.max n0 40) ltac:(lia) H0) as R0. fold W0 in R0. rewrite E in R0. destruct R0 as (l' & R0). rewrite R0 in R.
  eapply only_rle; [exact R | reflexivity | discriminate].
Qed.

Lemma only_at {A} (f : oper -> nat -> res A) a l F k : (forall W W' n n', (n <= n')%nat -> ople W W' -> rle (f W n) (f W' n')) ->
  f W0 40%nat = Ok a l -> only (f (world refSys F k) F) (fun x => x = a).
Proof. apply only_at'. Qed.
Lemma only_inEnv {A} l (m : res A) Q : only m Q -> only (inEnv l m) Q.
Proof. now destruct m. Qed.

Lemma not_invertible_324 : ~ invertible refSys 324.
Proof.
  intros (F & k & i & facts & E & V).
  assert (X : exists l, w_pow W0 (Num 324) mOne = Ok (Num (1 # 36)) l) by (eexists; lazy; reflexivity). destruct X as (l & X).
  pose proof (only_at (fun W _ => w_pow W (Num 324) mOne) _ l F k ltac:(intros W W' n n' _ HW; apply (o_pow _ _ HW)) X) as O. cbv beta in O. rewrite E in O. cbn in O. injection O as ->.
  unfold Q2R in V. cbn in V. lra.
Qed.

Definition hDen : expr := Sum [Num 648; Prod [Num 324; sx]].
Definition hExpr : expr := Prod [Num 324; Pow hDen (Num (-1))].
Definition hPoly : poly := [(ofZ 648, []); (ofZ 324, [(exX, 1)])].
Lemma hPoly_is : polyE hPoly = hDen. Proof. reflexivity. Qed.
Lemma hPoly_ordinary : ordinary hPoly.
Proof.
  apply ordinary_iff. split; [split|].
  - repeat constructor; try discriminate; reflexivity.
  - repeat constructor.
  - repeat constructor.
Qed.
Lemma hDen_hangs F k n : polyDivide refSys (world refSys F k) n hDen (Num 324) = Fuel.
Proof.
  rewrite <- hPoly_is. apply (divide_hangs refSys 10 exX); auto.
  - apply exact_ref.
  - unfold intMax; lia.
  - apply P_ok_iff. split; [exact hPoly_ordinary | discriminate].
  - intros s. rewrite <- hasSymbol_iff. unfold hasSymbol. split.
    + intros (m & f & [<-|[<-|[]]] & Hf & <-); cbn in Hf; [destruct Hf | destruct Hf as [<-|[]]; reflexivity].
    + intros ->. exists (ofZ 324, [(exX, 1)]), (exX, 1). cbn. auto.
  - reflexivity.
  - change 324%Q with (ofZ 324). rewrite Q2R_ofZ. apply not_0_IZR. discriminate.
  - exact not_invertible_324.
Qed.

Lemma normalF_hangs F k b : w_normalF (world refSys F k) (mkMap b []) hExpr = Fuel.
Proof.
  destruct k as [|k]; [reflexivity|]. cbn [world step w_normalF]. unfold hExpr at 1. cbn [normalF]. fold hExpr.
  apply only_false. eapply only_bind.
  { apply (only_at (fun W _ => w_expand W hExpr) hExpr []); [intros W W' n n' _ HW; apply (o_expand _ _ HW)|]. lazy. reflexivity. }
  intros ? ->. change (isZero hExpr) with false. cbv iota.
  eapply only_bind.
  { apply (only_at (fun W _ => NormalModel.fractions W (mkMap b []) [Num 324; Pow hDen (Num (-1))]) ([(Num 324, one); (one, hDen)], mkMap b []) []); [intros W W' n n' _ HW; now apply m_fractions|]. lazy. reflexivity. }
  intros ? ->. cbv iota beta. cbn [m_list map fst snd].
  eapply only_bind with (Q := fun _ => False); [|intros ? []]. apply only_inEnv.
  eapply only_bind.
  { apply (only_at (fun W _ => w_prod W [Num 324; one]) (Num 324) []); [intros W W' n n' _ HW; apply (o_prod _ _ HW)|]. lazy. reflexivity. }
  intros ? ->. eapply only_bind.
  { apply (only_at (fun W _ => w_prod W [one; hDen]) hDen []); [intros W W' n n' _ HW; apply (o_prod _ _ HW)|]. lazy. reflexivity. }
  intros ? ->. unfold cancel. change (isOne hDen) with false. change (isZero (Num 324)) with false. cbv iota.
  eapply only_bind.
  { apply (only_at (fun W _ => w_expand W hDen) hDen []); [intros W W' n n' _ HW; apply (o_expand _ _ HW)|]. lazy. reflexivity. }
  intros ? ->. change (isZero hDen) with false. cbv iota.
  eapply only_bind.
  { apply (only_at (fun W _ => polyGcd refSys W (Num 324) hDen) (Num 324) []); [intros W W' n n' _ HW; now apply m_polyGcd|]. lazy. reflexivity. }
  intros ? ->. eapply only_bind with (Q := fun _ => False); [|intros ? []]. unfold exactDivide. rewrite hDen_hangs. exact Logic.I.
Qed.

Theorem normal_hangs F k : w_normal (world refSys F k) hExpr = Fuel.
Proof. destruct k as [|k]; [reflexivity|]. cbn [world step w_normal]. unfold normalTop. now rewrite normalF_hangs. Qed.
Theorem toFraction_hangs F k n : toFraction (world refSys F k) n hExpr = Fuel.
Proof. unfold toFraction. now rewrite normalF_hangs. Qed.

(** The program. *)
Definition hTerm : term := TDiv (TInt 324) (TAdd (TInt 648) (TMul (TInt 324) tx)).
Lemma hTerm_built F k n : only (build (world refSys F k) n hTerm) (fun e => e = hExpr).
Proof. apply (only_at' (fun W n => build W n hTerm) hExpr []); [intros W W' m m' Hm HW; now apply m_build|]. lazy. reflexivity. Qed.
Theorem program_hangs F k n : build (world refSys F k) n (TNormal hTerm) = Fuel.
Proof. apply only_false. cbn [build]. eapply only_bind; [apply hTerm_built|]. intros ? ->. now rewrite normal_hangs. Qed.
Lemma hTerm_value : tval (allv 1) hTerm = Some (1 / 3)%R.
Proof. cbn. unfold allv. destruct (Req_EM_T (648 + 324 * 1) 0); [lra|]. f_equal. lra. Qed.
Theorem simplify_hangs F k n : build (world refSys F k) n (TSimplify hTerm) = Fuel.
Proof.
  apply only_false. cbn [build]. eapply only_bind; [apply hTerm_built|]. intros ? ->. unfold simplifyVar.
  eapply only_bind; [apply (only_at (fun W _ => w_expand W hExpr) hExpr []); [intros W W' m m' _ HW; apply (o_expand _ _ HW)|]; lazy; reflexivity|].
  intros ? _. now rewrite normal_hangs.
Qed.

(** A wrong inverse, seen once. *)
Lemma wrong_once Y c i F k l : w_pow (world Y F k) (Num c) (Num (-1)) = Ok (Num i) l -> (Q2R i * Q2R c <> 1)%R -> Q2R c <> 0%R -> ~ invertible Y c.
Proof.
  intros E W N (F' & k' & i' & l' & E' & V). destruct (world_max Y F F' k k') as [H H'].
  pose proof (o_pow _ _ H (Num c) (Num (-1))) as R. pose proof (o_pow _ _ H' (Num c) (Num (-1))) as R'. rewrite E in R. change mOne with (Num (-1)) in E'. rewrite E' in R'.
  destruct R as (a & R), R' as (a' & R'). rewrite R in R'. injection R' as -> _. apply W. rewrite V. field. exact N.
Qed.
Theorem user_hangs Y B t u c i F0 k0 l : exactUpTo B (s_nlt Y) -> B < intMax -> ordinary u -> totalDegree u <= B -> (forall s, hasSymbol s u <-> s = t) ->
  canon c -> Q2R c <> 0%R -> w_pow (world Y F0 k0) (Num c) (Num (-1)) = Ok (Num i) l -> (Q2R i * Q2R c <> 1)%R ->
  forall F k n, polyDivide Y (world Y F k) n (polyE u) (Num c) = Fuel.
Proof.
  intros Hlt HB Hu D Hs Cc Nc E W. apply (divide_hangs Y B t); auto.
  - now apply (bound_nonneg B u).
  - now apply P_ok_iff.
  - intros s. rewrite <- hasSymbol_iff. apply Hs.
  - eapply wrong_once; eauto.
Qed.
