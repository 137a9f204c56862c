(** Double comparisons of multiples of pi with 2*pi; the square root of two. *)
From Verif Require Import DoubleModel DoubleExact MixedModel MixedSpec DoubleOps FractionProofs MixedProofs NumberProofs NumberSpec ExprProofs EvalConst EvalSpec EvalAmple TrigApi PiArith PiTrig PiBase.
Require Import Flocq.Core.Core Flocq.IEEE754.BinarySingleNaN.
From Coq Require Import List Lia Lra Reals Qreals FunctionalExtensionality.
Import ListNotations.
Open Scope R_scope.

(** A double in [1, 2) has 52 binary places. *)
Lemma one_two x : isDouble x -> 1 <= doubleValue x < 2 -> exists m, x = S754_finite false m (-52) /\ doubleValue x = IZR (Zpos m) / IZR (2 ^ 52).
Proof.
  intros [V Fi] B. destruct x as [s|s| |s m e]; try discriminate Fi.
  - unfold doubleValue in B. cbn in B. lra.
  - destruct s.
    { unfold doubleValue, SF2R in B. assert (F2R (Float radix2 (cond_Zopp true (Zpos m)) e) < 0) by (apply F2R_lt_0; cbn; lia). lra. }
    assert (E : e = (-52)%Z).
    { assert (Mg : mag radix2 (doubleValue (S754_finite false m e)) = 1%Z :> Z) by (apply mag_unique; rewrite Rabs_pos_eq by lra; change (bpow radix2 (1 - 1)) with 1; change (bpow radix2 1) with 2; exact B).
      unfold doubleValue, SF2R in Mg. cbn [cond_Zopp] in Mg. rewrite mag_F2R_Zdigits in Mg by discriminate.
      cbn [valid_binary] in V. unfold SpecFloat.valid_binary, SpecFloat.bounded in V. apply andb_prop in V as [V _]. unfold SpecFloat.canonical_mantissa in V. apply Zeq_bool_eq in V.
      rewrite Digits.Zpos_digits2_pos in V. rewrite Mg in V. rewrite <- V. reflexivity. }
    subst e. exists m. split; [reflexivity|]. rewrite value_frac. reflexivity.
Qed.
Lemma sqrt2_cases lib : accurate lib -> exists m, In m [6369051672525772; 6369051672525773]%positive /\ fixLib lib m = lib.
Proof.
  intros (_ & H & _). assert (D2 : isDouble (dOfZ 2)) by (split; vm_compute; reflexivity).
  assert (V2 : doubleValue (dOfZ 2) = 2) by (change (dOfZ 2) with (S754_finite false 4503599627370496 (-51)); rewrite value_frac; replace (2 ^ 51)%Z with 2251799813685248%Z by reflexivity; lra).
  destruct dhalf as [DH VH]. destruct (H _ _ D2 DH) as [HD HV].
  { rewrite V2. split; [apply Rle_trans with (bpow radix2 1); [apply bpow_le; lia|right; reflexivity]|apply Rle_trans with (bpow radix2 1); [right; reflexivity|apply bpow_le; lia]]. }
  { rewrite VH. lra. }
  rewrite V2, VH in HV. rewrite Rpower_sqrt in HV by lra. change (bpow radix2 (-52)) with (/ 4503599627370496) in HV.
  set (x := l_pow lib (dOfZ 2) dHalf) in *.
  assert (S : sqrt 2 * sqrt 2 = 2) by (apply sqrt_sqrt; lra). pose proof (sqrt_pos 2) as SP. set (s := sqrt 2) in *. clearbody s.
  assert (SB : 14142 / 10000 <= s <= 14143 / 10000) by nra. apply Rabs_le_inv in HV.
  destruct (one_two x HD) as (m & E & Vm); [lra|]. rewrite Vm in HV. replace (2 ^ 52)%Z with 4503599627370496%Z in HV by reflexivity.
  set (z := IZR (Zpos m)) in *.
  assert (Z1 : s * 4503599627370495 <= z <= s * 4503599627370497) by lra.
  assert (Z2 : 2 * (4503599627370495 * 4503599627370495) <= z * z <= 2 * (4503599627370497 * 4503599627370497)) by nra.
  assert (A : In m [6369051672525772; 6369051672525773]%positive).
  { unfold z in Z2. rewrite <- !mult_IZR in Z2. destruct Z2 as [A1 A2]. apply le_IZR in A1, A2.
    assert (~ (Zpos m <= 6369051672525771))%Z by nia. assert (~ (6369051672525774 <= Zpos m))%Z by nia.
    assert (C : Zpos m = 6369051672525772%Z \/ Zpos m = 6369051672525773%Z) by lia. destruct C as [C|C]; injection C as C; rewrite C; [now left|right; now left]. }
  exists m. split; [exact A|]. unfold fixLib. destruct lib as [p f a]. cbn [l_pow l_fct l_atan2] in *. f_equal.
  apply functional_extensionality. intros u. apply functional_extensionality. intros v.
  destruct (sameDouble u (dOfZ 2) && sameDouble v dHalf) eqn:Sm; [|reflexivity]. apply andb_prop in Sm as [S1 S2].
  assert (same_eq : forall a b, sameDouble a b = true -> a = b).
  { intros [s1|s1| |s1 m1 e1] [s2|s2| |s2 m2 e2]; cbn [sameDouble]; try discriminate. rewrite !andb_true_iff. intros [[B1 B2] B3].
    apply Bool.eqb_prop in B1. apply Pos.eqb_eq in B2. apply Z.eqb_eq in B3. now subst. }
  apply same_eq in S1, S2. subst u v. symmetry. exact E.
Qed.

Section Compare.
  Variables (lib : library) (limit : Z).
  Hypothesis Hlib : accurate lib.
  Notation Y := (doubleSys lib limit).
  Lemma grid_below : forallb (fun q => negb (ge2 Y q)) grid = true.
  Proof. vm_compute. reflexivity. Qed.
  Lemma const_piE q : canon q -> constExpr (piE q).
  Proof. intros C. unfold piE. destruct (qeqb q 0); [reflexivity|]. destruct (qeqb q 1); [exact I|]. cbn. auto. Qed.
  Lemma two_pi : numericEval Y (piE 2) = Some (ND (S754_finite false 7074237752028440 (-50))).
  Proof. vm_compute. reflexivity. Qed.
  (** Few enough digits for a double. *)
  Definition modest (q : Q) : Prop := (Z.abs (Qnum q) < 2 ^ 300)%Z /\ (Zpos (Qden q) < 2 ^ 300)%Z.
  Lemma modest_bits q : modest q -> (bits (piE q) <= 400)%Z.
  Proof.
    intros [M1 M2]. assert (B : (bitsQ q <= 300)%Z).
    { unfold bitsQ. assert (A : forall z, (0 <= z < 2 ^ 300)%Z -> (Z.log2 z < 300)%Z).
      { intros z [Z1 Z2]. destruct (Z.eq_dec z 0) as [->|N]; [reflexivity|]. apply Z.log2_lt_pow2; lia. }
      pose proof (A (Z.abs (Qnum q)) ltac:(lia)). pose proof (A (Zpos (Qden q)) ltac:(lia)). lia. }
    unfold piE. destruct (qeqb q 0); [vm_compute; discriminate|]. destruct (qeqb q 1); [vm_compute; discriminate|]. unfold pi. cbn [bits fold_right]. lia.
  Qed.
  Lemma has_value q : canon q -> modest q -> numericEval Y (piE q) <> None.
  Proof.
    intros C M E. destruct (few_digits lib limit (fun _ _ => 0) (piE q) Hlib (const_piE q C) (modest_bits q M)) as (x & v & V & _).
    unfold varToDouble in V. rewrite E in V. discriminate V.
  Qed.
  Lemma above q : canon q -> modest q -> 2 + / 24 <= Q2R q -> ge2 Y q = true.
  Proof.
    intros C M L. destruct (few_digits lib limit (fun _ _ => 0) (piE q) Hlib (const_piE q C) (modest_bits q M)) as (x & v & V & D & Ev & B).
    unfold varToDouble in V. unfold ge2, oGe. rewrite two_pi. destruct (numericEval Y (piE q)) as [n|]; [|discriminate V]. injection V as V.
    unfold nge, nlt. assert (S : numberLt (toNumber n) (NDbl (S754_finite false 7074237752028440 (-50))) = false).
    2:{ unfold doubleSys. cbn [s_lt]. destruct n; cbn [toNumber] in *; rewrite S; reflexivity. }
    unfold numberLt. change (toDouble (toNumber n)) with (numToDouble n). rewrite V. change (toDouble (NDbl ?a)) with a.
    assert (D2 : isDouble (S754_finite false 7074237752028440 (-50))) by (split; vm_compute; reflexivity).
    rewrite (lt_value _ _ D D2). apply Rlt_bool_false. rewrite value_frac. replace (2 ^ 50)%Z with 1125899906842624%Z by reflexivity.
    destruct pi_close as [_ P]. unfold mPi in P. rewrite value_frac in P. replace (2 ^ 51)%Z with 2251799813685248%Z in P by reflexivity.
    change (bpow radix2 (-50)) with (/ 1125899906842624) in P. apply Rabs_le_inv in P.
    assert (N0 : qeqb q 0 = false) by (destruct (qeqb q 0) eqn:E; [apply qeqb_eq in E; subst; unfold Q2R in L; cbn in L; lra|reflexivity]).
    assert (N1 : qeqb q 1 = false) by (destruct (qeqb q 1) eqn:E; [apply qeqb_eq in E; subst; unfold Q2R in L; cbn in L; lra|reflexivity]).
    unfold piE in Ev, B. rewrite N0, N1 in Ev, B. cbn in Ev. injection Ev as <-. unfold pi in B. cbn [size steps fold_right Nat.add] in B.
    rewrite Rabs_pos_eq with (x := Q2R q) in B by lra. change (bpow radix2 (-47)) with (/ 140737488355328) in B. cbn [INR] in B. apply Rabs_le_inv in B. set (p := Q2R q) in *. nra.
  Qed.
  Lemma ge_two : ge2 Y 2 = true.
  Proof. unfold ge2. rewrite two_pi. vm_compute. reflexivity. Qed.
End Compare.
