From mathcomp Require Import all_ssreflect all_algebra.
From Verif Require Import FciModel FciSpec.
From Verif Require Base.
Set Implicit Arguments.
Unset Strict Implicit.
Unset Printing Implicit Defensive.
Import GRing.Theory Num.Theory.
Local Open Scope ring_scope.

Section Boson.
Variables (R : rcfType) (na nbt m D : nat) (nb : 'I_m -> nat).
Hypothesis nbD : forall k, (nb k <= D)%N.
Notation civec := (@civec R na nbt m D).
Notation cfg := (cfg m D).
Implicit Types (u v : civec) (c : cfg) (k : 'I_m).

Lemma cset_id c k n : (n <= D)%N -> cset c k n k = n :> nat.
Proof. by move=> h; rewrite ffunE eqxx inordK. Qed.
Lemma cset_other c k j n : j != k -> cset c k n j = c j.
Proof. by move=> h; rewrite ffunE (negbTE h). Qed.
Lemma cset_self c k : cset c k (c k) = c.
Proof. by apply/ffunP => j; rewrite ffunE; case: eqP => [->|//]; rewrite inord_val. Qed.
Lemma cset_cset c k n n' : cset (cset c k n) k n' = cset c k n'.
Proof. by apply/ffunP => j; rewrite !ffunE; case: eqP. Qed.
Lemma cset_comm c k j n n' : k != j -> cset (cset c k n) j n' = cset (cset c j n') k n.
Proof.
move=> h; apply/ffunP => i; rewrite !ffunE.
by case: (i =P j) => [->|//]; rewrite eq_sym (negbTE h).
Qed.
Lemma inside_le c k : inside nb c -> (c k <= nb k)%N.
Proof. by move/forallP/(_ k). Qed.
Lemma inside_cset c k n : inside nb c -> (n <= nb k)%N -> inside nb (cset c k n).
Proof.
move=> /forallP h hn; apply/forallP => j; case: (j =P k) => [->|/eqP e].
  by rewrite cset_id // (leq_trans hn).
by rewrite cset_other.
Qed.

Lemma creE v k s t c : (c k <= nb k)%N -> cre_boson nb v k s t c =
  if (0 < c k)%N then Num.sqrt (c k)%:R * v s t (cset c k (c k).-1) else 0.
Proof.
move=> hc; rewrite /cre_boson; case: ltnP => h0; last first.
  by move: h0; rewrite leqn0 => /eqP h0; rewrite big1 // => i _; rewrite h0.
have h1 : ((c k).-1 < nb k)%N by rewrite prednK.
rewrite (bigD1 (Ordinal h1)) //= prednK // eqxx big1 ?addr0 // => i /eqP ne.
case: eqP => // e; case: ne; apply: val_inj => /=; by rewrite e.
Qed.
Lemma desE v k s t c : (c k <= nb k)%N -> des_boson nb v k s t c =
  if (c k < nb k)%N then Num.sqrt (c k).+1%:R * v s t (cset c k (c k).+1) else 0.
Proof.
move=> hc; rewrite /des_boson; case: ltnP => h0; last first.
  rewrite big1 // => i _; case: eqP => // e.
  by move: (ltn_ord i); rewrite -e ltnNge h0.
rewrite (bigD1 (Ordinal h0)) //= eqxx big1 ?addr0 // => i /eqP ne.
case: eqP => // e; case: ne; apply: val_inj => /=; by rewrite e.
Qed.

Lemma dot_cre u v k : dot nb u (cre_boson nb v k) = dot nb (des_boson nb u k) v.
Proof.
rewrite /dot; apply: eq_bigr => s _; apply: eq_bigr => t _.
rewrite (bigID (fun c => (0 < c k)%N)) /= [X in _ + X]big1 ?addr0; last first.
  by move=> c /andP [hi h0]; rewrite creE ?inside_le // (negbTE h0) mulr0.
rewrite [RHS](bigID (fun c => (c k < nb k)%N)) /= [X in _ + X]big1 ?addr0; last first.
  by move=> c /andP [hi h0]; rewrite desE ?inside_le // (negbTE h0) mul0r.
rewrite (reindex_onto (fun c => cset c k (c k).+1) (fun c => cset c k (c k).-1)) /=; last first.
  move=> c /andP [hi h0]; have h1 := inside_le k hi.
  have hp : ((c k).-1 <= D)%N by rewrite (leq_trans (leq_pred _)) // (leq_trans h1).
  by rewrite cset_cset cset_id // prednK // cset_self.
apply: eq_big => [c|c].
  apply/idP/idP.
    case/andP => /andP [hi h0] /eqP e.
    have hD : ((c k).+1 <= D)%N.
      rewrite leqNgt; apply/negP => h.
      have := congr1 (fun f : cfg => val (f k)) e; rewrite cset_cset.
      have ec : (c k = D :> nat) by apply/eqP; rewrite eqn_leq -ltnS ltn_ord -ltnS h.
      move: h0; rewrite /cset ffunE eqxx /inord /insubd insubN /= ?ec ?ltnn //.
    have := inside_le k hi; rewrite cset_id // => hlt; rewrite hlt andbT.
    have -> : c = cset (cset c k (c k).+1) k (c k) by rewrite cset_cset cset_self.
    by apply: inside_cset => //; apply: ltnW.
  case/andP => hi hlt; have hD : ((c k).+1 <= D)%N by apply: (leq_trans hlt).
  by rewrite inside_cset //= cset_id //= cset_cset cset_self eqxx.
case/andP => /andP [hi h0] /eqP e.
have hD : ((c k).+1 <= D)%N.
  rewrite leqNgt; apply/negP => h.
  have ec : (c k = D :> nat) by apply/eqP; rewrite eqn_leq -ltnS ltn_ord -ltnS h.
  by move: h0; rewrite /cset ffunE eqxx /inord /insubd insubN /= ?ec ?ltnn.
have hle := inside_le k hi; rewrite cset_id // in hle.
rewrite creE ?cset_id ?inside_le //= desE ?(ltnW hle) // hle cset_cset cset_self.
by rewrite mulrCA mulrA.
Qed.

Lemma dot_sym u v : dot nb u v = dot nb v u.
Proof. by rewrite /dot; do 3![apply: eq_bigr => ? _]; rewrite mulrC. Qed.
Lemma dot_des u v k : dot nb u (des_boson nb v k) = dot nb (cre_boson nb u k) v.
Proof. by rewrite dot_sym -dot_cre dot_sym. Qed.

Lemma commutator v k s t c : inside nb c -> (c k < nb k)%N ->
  des_boson nb (cre_boson nb v k) k s t c - cre_boson nb (des_boson nb v k) k s t c = v s t c.
Proof.
move=> hi hlt; have hk := ltnW hlt; have hD : ((c k).+1 <= D)%N := leq_trans hlt (nbD k).
rewrite desE // hlt creE ?cset_id //= cset_cset cset_self mulrA.
rewrite -expr2 sqr_sqrtr ?ler0n //.
rewrite creE //; case: ltnP => h0.
  have hp : ((c k).-1 <= D)%N by rewrite (leq_trans (leq_pred _)) // ltnW.
  rewrite desE ?cset_id //; last by rewrite (leq_trans (leq_pred _)).
  rewrite prednK // hk cset_cset cset_self mulrA -expr2 sqr_sqrtr ?ler0n //.
  by rewrite -mulrBl -natrB // subSnn mul1r.
by move: h0; rewrite leqn0 => /eqP ->; rewrite mul1r subr0.
Qed.
Lemma commutator_cutoff v k s t c : inside nb c -> c k = nb k :> nat ->
  des_boson nb (cre_boson nb v k) k s t c - cre_boson nb (des_boson nb v k) k s t c = - (nb k)%:R * v s t c.
Proof.
move=> hi e; have hk := inside_le k hi.
rewrite desE // e ltnn creE // e; case: (posnP (nb k)) => [->|h0]; first by rewrite subr0 mulNr mul0r oppr0.
have hp : ((nb k).-1 <= D)%N by rewrite (leq_trans (leq_pred _)).
rewrite desE ?cset_id ?leq_pred // prednK // leqnn cset_cset -e cset_self mulrA -expr2 sqr_sqrtr ?ler0n // sub0r mulNr //.
Qed.
Lemma number v k s t c : inside nb c ->
  cre_boson nb (des_boson nb v k) k s t c = (c k)%:R * v s t c.
Proof.
move=> hi; have hk := inside_le k hi.
rewrite creE //; case: posnP => [->|h0]; first by rewrite mul0r.
have hp : ((c k).-1 <= D)%N by rewrite (leq_trans (leq_pred _)) // (leq_trans hk).
rewrite desE ?cset_id // ?(leq_trans (leq_pred _)) // prednK // hk cset_cset cset_self mulrA -expr2 sqr_sqrtr ?ler0n //.
Qed.
Lemma other_mode v k j s t c : k != j -> inside nb c ->
  des_boson nb (cre_boson nb v k) j s t c = cre_boson nb (des_boson nb v j) k s t c.
Proof.
move=> ne hi; have hk := inside_le k hi; have hj := inside_le j hi.
have e1 n : cset c j n k = c k by apply: cset_other.
have e2 n : cset c k n j = c j by apply: cset_other; rewrite eq_sym.
rewrite (desE _ _ _ hj) (creE (des_boson nb v j) _ _ hk).
have hcre n : cre_boson nb v k s t (cset c j n) = _ := creE v s t (k := k) (c := cset c j n) _.
have hdes n : des_boson nb v j s t (cset c k n) = _ := desE v s t (k := j) (c := cset c k n) _.
rewrite hcre => [|n]; rewrite ?e1 // hdes => [|n]; rewrite ?e2 //.
case: (ltnP (c j) (nb j)) => h1; case: (ltnP 0%N (c k)) => h0; rewrite ?mulr0 //.
by rewrite mulrCA cset_comm 1?eq_sym.
Qed.
Lemma other_cre v k j s t c : inside nb c ->
  cre_boson nb (cre_boson nb v k) j s t c = cre_boson nb (cre_boson nb v j) k s t c.
Proof.
case: (k =P j) => [-> //|/eqP ne] hi; have hk := inside_le k hi; have hj := inside_le j hi.
have e1 n : cset c j n k = c k by apply: cset_other.
have e2 n : cset c k n j = c j by apply: cset_other; rewrite eq_sym.
rewrite (creE (cre_boson nb v k) _ _ hj) (creE (cre_boson nb v j) _ _ hk).
have h1 n : cre_boson nb v k s t (cset c j n) = _ := creE v s t (k := k) (c := cset c j n) _.
have h2 n : cre_boson nb v j s t (cset c k n) = _ := creE v s t (k := j) (c := cset c k n) _.
rewrite h1 => [|n]; rewrite ?e1 // h2 => [|n]; rewrite ?e2 //.
case: (ltnP 0%N (c j)) => q1; case: (ltnP 0%N (c k)) => q0; rewrite ?mulr0 //.
by rewrite mulrCA cset_comm 1?eq_sym.
Qed.

(** * Bosonic energy *)
Lemma bb_ok (w : 'I_m -> R) v s t c : inside nb c ->
  contract_bb nb w v s t c = boson_energy w c * v s t c.
Proof.
move=> hi; rewrite /contract_bb /boson_energy mulr_suml; apply: eq_bigr => k _.
have hk := inside_le k hi.
rewrite -big_mkcond /=; case: (posnP (c k)) => h0.
  rewrite h0 mulr0 mul0r big_nat_cond big1 // => i.
  by case/andP => /andP [h _] /eqP e; move: h; rewrite -e.
rewrite (big_cat_nat _ _ _ h0 (leqW hk)) /= big_nat_cond big1 ?add0r; last first.
  by move=> i /andP [/andP [_ hlt] /eqP e]; move: hlt; rewrite e ltnn.
rewrite big_ltn_cond //= eqxx big_nat_cond big1 ?addr0; first by rewrite mulrC.
by move=> i /andP [/andP [hlt _] /eqP e]; move: hlt; rewrite e ltnn.
Qed.
End Boson.

(** * Matrix of frequencies *)
Section Matrix.
Variable R : rcfType.

Lemma last_other_max m (k : 'I_m.+1) : k != ord_max -> last_other k = Some ord_max.
Proof.
move=> h; rewrite /last_other enum_ordSr filter_rcons eq_sym h rev_rcons //.
Qed.
Lemma last_other_ord_max m : exists2 j : 'I_m.+2, last_other (@ord_max m.+1) = Some j & j = m :> nat.
Proof.
exists (widen_ord (leqnSn m.+1) (@ord_max m)) => //.
rewrite /last_other enum_ordSr filter_rcons eqxx /= enum_ordSr map_rcons filter_rcons.
have -> : widen_ord (leqnSn m.+1) (@ord_max m) != ord_max.
  by apply/negP => /eqP /(congr1 val) /= /eqP; rewrite ltn_eqF.
by rewrite rev_rcons.
Qed.
Lemma last_other_one (k : 'I_1) : last_other k = None.
Proof. by rewrite /last_other enum_ordSl /= (ord1 k) eqxx /=; case: (enum 'I_0) => // [[]]. Qed.
Lemma last_other_some m (k : 'I_m.+2) : exists2 j, last_other k = Some j & j != k.
Proof.
case: (k =P ord_max) => [->|/eqP h].
  have [j e ej] := last_other_ord_max m; exists j => //.
  by apply/negP => /eqP /(congr1 val) /= /eqP; rewrite ej ltn_eqF.
by exists ord_max; [apply: last_other_max | rewrite eq_sym].
Qed.

Variables (na nbt D : nat).
(** one mode *)
Lemma kernel_one_mode norb (nb : 'I_1 -> nat) taba tabb h1e eri nelec Heb w
    (v : @civec R na nbt 1 D) : (forall k, nb k <= D)%N ->
  exists2 u, kernel_hop (norb := norb) nb taba tabb h1e eri nelec Heb w v = Base.Ok u &
    forall s t c, u s t c = hop nb taba tabb h1e eri nelec Heb w v s t c.
Proof.
move=> hD; rewrite /kernel_hop /contract_bb_matrix.
have -> : [forall k, (nb k == 0%N) || bb_fits nb k].
  by apply/forallP => k; rewrite /bb_fits last_other_one orbT.
eexists; first by reflexivity.
move=> s t c; rewrite /hop; congr (_ + _); apply: eq_bigr => k _; apply: eq_bigr => i _.
by rewrite /bb_row last_other_one mxE eqxx.
Qed.
(** several modes *)
Lemma kernel_raises norb m (nb : 'I_m.+2 -> nat) taba tabb h1e eri nelec Heb w (v : @civec R na nbt m.+2 D) k j :
  last_other k = Some j -> nb k != 0%N -> (nb j).+1 != m.+2 ->
  kernel_hop (norb := norb) nb taba tabb h1e eri nelec Heb w v = Base.Err Base.ValueError.
Proof.
move=> ej hk hj; rewrite /kernel_hop /contract_bb_matrix.
case: ifP => // /forallP /(_ k); rewrite (negbTE hk) /= /bb_fits ej (negbTE hj) //.
Qed.
Lemma bb_two_modes (w : 'I_2 -> R) (v : @civec R na nbt 2 1) :
  exists2 u, contract_bb_matrix (fun _ => 1%N) (\matrix_(k, l) if k == l then w k else 0) v = Base.Ok u &
    forall s t (c : cfg 2 1), (forall k, c k = 1%N :> nat) -> u s t c = w ord_max * v s t c.
Proof.
rewrite /contract_bb_matrix.
have -> : [forall k : 'I_2, (1%N == 0%N) || bb_fits (fun _ => 1%N) k].
  by apply/forallP => k; rewrite /bb_fits; have [j -> _] := last_other_some k.
eexists; first by reflexivity.
move=> s t c hc; rewrite /= !big_ord_recr big_ord0 /= !big_nat1 !hc eqxx add0r.
rewrite /bb_row.
have -> : last_other (widen_ord (leqnSn 1) (@ord_max 0)) = Some (@ord_max 1).
  by apply: last_other_max; apply/negP => /eqP /(congr1 val).
have [j -> ej] := last_other_ord_max 0.
rewrite !hc !(big_pred1 (@ord_max 1)); try by move=> l; apply/eqP/eqP => [e|->//]; apply: val_inj.
rewrite !mxE !eqxx.
have -> : (widen_ord (leqnSn 1) (@ord_max 0) == @ord_max 1) = false by apply/negP => /eqP /(congr1 val).
by rewrite mul0r mulr0 add0r mulr1 mulrC.
Qed.
End Matrix.

(** * Electronic part *)
Section Elec.
Variables (R : rcfType) (norb na nbt m D : nat) (nb : 'I_m -> nat).
Notation civec := (@civec R na nbt m D).
Variables (taba : 'I_na -> seq (link norb na)) (tabb : 'I_nbt -> seq (link norb nbt)).
Notation E := (@Eop R norb na nbt m D taba tabb).

Lemma links ns (tab : 'I_ns -> seq (link norb ns)) (f : 'I_norb -> 'I_norb -> R) s0 s1 :
  \sum_(l <- tab s0 | lto l == s1) lsign R l * f (la l) (li l) = \sum_a \sum_i coef R tab a i s1 s0 * f a i.
Proof.
rewrite (partition_big (fun l => la l) xpredT) //=; apply: eq_bigr => a _.
rewrite (partition_big (fun l => li l) xpredT) //=; apply: eq_bigr => i _.
rewrite /coef mulr_suml; apply: eq_big => [l|l]; first by rewrite -andbA andbC.
by case/andP => /andP [_ /eqP ->] /eqP ->.
Qed.
Lemma t1_E v a i s t c : t1a taba v a i s t c + t1b tabb v a i s t c = E a i v s t c.
Proof. by rewrite /t1a /t1b /Eop; congr (_ + _); apply: eq_bigr => x _; rewrite mulr_suml. Qed.
Lemma eq_E a i v v' s t c : (forall s t, v s t c = v' s t c) -> E a i v s t c = E a i v' s t c.
Proof. by move=> h; rewrite /Eop; congr (_ + _); apply: eq_bigr => x _; rewrite h. Qed.
Lemma E_lin (I : finType) (x : I -> R) (V : I -> civec) a i s t c :
  E a i (fun s t c => \sum_j x j * V j s t c) s t c = \sum_j x j * E a i (V j) s t c.
Proof.
rewrite /Eop; transitivity (\sum_j x j * (\sum_s0 coef R taba a i s s0 * V j s0 t c) + \sum_j x j * (\sum_t0 coef R tabb a i t t0 * V j s t0 c)).
  congr (_ + _); [rewrite (eq_bigr (fun s0 => \sum_j x j * (coef R taba a i s s0 * V j s0 t c))) | rewrite (eq_bigr (fun t0 => \sum_j x j * (coef R tabb a i t t0 * V j s t0 c)))];
   try by move=> z _; rewrite mulr_sumr; apply: eq_bigr => j _; rewrite mulrCA.
    by rewrite exchange_big /=; apply: eq_bigr => j _; rewrite mulr_sumr.
  by rewrite exchange_big /=; apply: eq_bigr => j _; rewrite mulr_sumr.
by rewrite -big_split /=; apply: eq_bigr => j _; rewrite mulrDr.
Qed.
Lemma contract_2e_E eri v s t c :
  contract_2e taba tabb eri v s t c = \sum_a \sum_i \sum_b \sum_j eri a i b j * E a i (E b j v) s t c.
Proof.
rewrite /contract_2e.
have h1 s' t' a i : t2 taba tabb eri v a i s' t' c = \sum_b \sum_j eri a i b j * E b j v s' t' c.
  by apply: eq_bigr => b _; apply: eq_bigr => j _; rewrite t1_E.
transitivity (\sum_a \sum_i E a i (fun s t c => \sum_b \sum_j eri a i b j * E b j v s t c) s t c); last first.
  apply: eq_bigr => a _; apply: eq_bigr => i _.
  rewrite (@eq_E a i _ (fun s t c => \sum_(bj : 'I_norb * 'I_norb) eri a i bj.1 bj.2 * E bj.1 bj.2 v s t c)).
    by rewrite E_lin pair_bigA.
  by move=> s' t'; rewrite pair_bigA.
rewrite /Eop.
under [RHS]eq_bigr => a _ do rewrite big_split /=.
rewrite big_split /=; congr (_ + _).
  under [RHS]eq_bigr => a _ do rewrite exchange_big /=.
  rewrite exchange_big /=; apply: eq_bigr => s0 _.
  rewrite (links _ (fun a i => t2 taba tabb eri v a i s0 t c)).
  by apply: eq_bigr => a _; apply: eq_bigr => i _; rewrite h1.
under [RHS]eq_bigr => a _ do rewrite exchange_big /=.
rewrite exchange_big /=; apply: eq_bigr => t0 _.
rewrite (links _ (fun a i => t2 taba tabb eri v a i s t0 c)).
by apply: eq_bigr => a _; apply: eq_bigr => i _; rewrite h1.
Qed.

Section Number.
Variables Na Nb : nat.
Hypotheses (na_ok : number_table R taba Na) (nb_ok : number_table R tabb Nb).
Lemma E_number v s t c : \sum_p E p p v s t c = (Na + Nb)%:R * v s t c.
Proof.
rewrite /Eop big_split natrD mulrDl /=; congr (_ + _).
  rewrite exchange_big /= (bigD1 s) //= -mulr_suml na_ok eqxx big1 ?addr0 // => x hx.
  by rewrite -mulr_suml na_ok eq_sym (negbTE hx) mul0r.
rewrite exchange_big /= (bigD1 t) //= -mulr_suml nb_ok eqxx big1 ?addr0 // => x hx.
by rewrite -mulr_suml nb_ok eq_sym (negbTE hx) mul0r.
Qed.
Lemma E_number_right v p q s t c : \sum_r E p q (E r r v) s t c = (Na + Nb)%:R * E p q v s t c.
Proof.
transitivity (E p q (fun s t c => \sum_r 1 * E r r v s t c) s t c).
  by rewrite E_lin; apply: eq_bigr => r _; rewrite mul1r.
rewrite (@eq_E p q _ (fun s t c => \sum_(j : 'I_1) (Na + Nb)%:R * v s t c)).
  by rewrite (E_lin (fun _ => (Na + Nb)%:R) (fun _ => v)) big_ord1.
move=> s' t'; rewrite big_ord1 -E_number; apply: eq_bigr => r _; by rewrite mul1r.
Qed.

Lemma absorb_ok h eri (v : civec) s t c : (0 < Na + Nb)%N ->
  contract_2e taba tabb (absorb_h1e h eri (Na + Nb) (1 / 2%:R)) v s t c =
  one_body taba tabb h v s t c + two_body taba tabb eri v s t c.
Proof.
move=> hN; have N0 : (Na + Nb)%:R != 0 :> R by rewrite pnatr_eq0 -lt0n.
have two0 : (2%:R : R) != 0 by rewrite pnatr_eq0.
set N := (Na + Nb)%N in N0 *.
pose f j k := (h j k - (\sum_i eri j i i k) / 2%:R) / N%:R.
rewrite contract_2e_E /absorb_h1e /=.
transitivity ((\sum_a \sum_i \sum_b \sum_j eri a i b j * E a i (E b j v) s t c) / 2%:R
   + ((\sum_a \sum_i \sum_b \sum_j (if a == i then f b j else 0) * E a i (E b j v) s t c) / 2%:R
   + (\sum_a \sum_i \sum_b \sum_j (if b == j then f a i else 0) * E a i (E b j v) s t c) / 2%:R)).
  rewrite -!mulrDl -!big_split /= [RHS]mulr_suml; apply: eq_bigr => a _.
  rewrite -!big_split /= [RHS]mulr_suml; apply: eq_bigr => i _.
  rewrite -!big_split /= [RHS]mulr_suml; apply: eq_bigr => b _.
  rewrite -!big_split /= [RHS]mulr_suml; apply: eq_bigr => j _.
  by rewrite -!mulrDl addrA mul1r mulrAC.
have -> : \sum_a \sum_i \sum_b \sum_j (if a == i then f b j else 0) * E a i (E b j v) s t c =
          N%:R * \sum_b \sum_j f b j * E b j v s t c.
  transitivity (\sum_a \sum_b \sum_j f b j * E a a (E b j v) s t c).
    apply: eq_bigr => a _; rewrite (bigD1 a) //= [X in _ + X]big1 ?addr0.
      by apply: eq_bigr => b _; apply: eq_bigr => j _; rewrite eqxx.
    move=> i hi; rewrite big1 // => b _; rewrite big1 // => j _.
    by rewrite eq_sym (negbTE hi) mul0r.
  rewrite exchange_big /= mulr_sumr; apply: eq_bigr => b _.
  rewrite exchange_big /= mulr_sumr; apply: eq_bigr => j _.
  by rewrite -mulr_sumr E_number mulrCA.
have -> : \sum_a \sum_i \sum_b \sum_j (if b == j then f a i else 0) * E a i (E b j v) s t c =
          N%:R * \sum_b \sum_j f b j * E b j v s t c.
  rewrite mulr_sumr; apply: eq_bigr => a _; rewrite mulr_sumr; apply: eq_bigr => i _.
  transitivity (\sum_b f a i * E a i (E b b v) s t c).
    apply: eq_bigr => b _; rewrite (bigD1 b) //= eqxx big1 ?addr0 // => j hj.
    by rewrite eq_sym (negbTE hj) mul0r.
  by rewrite -mulr_sumr E_number_right mulrCA.
have half (x : R) : x / 2%:R + x / 2%:R = x by rewrite -mulrDl -mulr2n -mulr_natr mulfK.
rewrite half.
rewrite addrC /one_body /two_body.
have -> : N%:R * (\sum_b \sum_j f b j * E b j v s t c) =
    (\sum_p \sum_q h p q * E p q v s t c) - (\sum_p \sum_q (\sum_i eri p i i q) * E p q v s t c) / 2%:R.
  rewrite mulr_sumr mulr_suml -sumrB; apply: eq_bigr => p _.
  rewrite mulr_sumr mulr_suml -sumrB; apply: eq_bigr => q _.
  by rewrite mulrA /f [N%:R * _]mulrC mulfVK // mulrBl [in LHS]mulrAC.
rewrite -addrA; congr (_ + _); rewrite addrC -mulrBl; congr (_ / _).
rewrite -sumrB; apply: eq_bigr => p _.
transitivity ((\sum_q \sum_r \sum_x eri p q r x * E p q (E r x v) s t c)
   - \sum_q \sum_r \sum_x eri p q r x * (if q == r then E p x v s t c else 0)); last first.
  rewrite -sumrB; apply: eq_bigr => q _; rewrite -sumrB; apply: eq_bigr => r _; rewrite -sumrB; apply: eq_bigr => x _.
  by rewrite mulrBr.
congr (_ - _); transitivity (\sum_q \sum_x eri p q q x * E p x v s t c).
  by rewrite exchange_big /=; apply: eq_bigr => x _; rewrite mulr_suml.
apply: eq_bigr => q _; rewrite [RHS](bigD1 q) //= [X in _ + X]big1 ?addr0.
  by apply: eq_bigr => x _; rewrite eqxx.
by move=> r hr; rewrite big1 // => x _; rewrite eq_sym (negbTE hr) mulr0.
Qed.
End Number.

(** * Electron-boson coupling *)
Lemma one_body_links h (v : civec) s t c : one_body taba tabb h v s t c =
  \sum_s0 \sum_(l <- taba s0 | lto l == s) lsign R l * (h (la l) (li l) * v s0 t c)
  + \sum_t0 \sum_(l <- tabb t0 | lto l == t) lsign R l * (h (la l) (li l) * v s t0 c).
Proof.
rewrite /one_body /Eop.
under eq_bigr => p _ do (under eq_bigr => q _ do rewrite mulrDr; rewrite big_split /=).
rewrite big_split /=; congr (_ + _).
  transitivity (\sum_p \sum_s0 \sum_q coef R taba p q s s0 * (h p q * v s0 t c)).
    apply: eq_bigr => p _; rewrite exchange_big /=; apply: eq_bigr => q _; rewrite mulr_sumr.
    by apply: eq_bigr => s0 _; rewrite mulrCA.
  by rewrite exchange_big /=; apply: eq_bigr => s0 _; rewrite (links _ (fun a i => h a i * v s0 t c)).
transitivity (\sum_p \sum_t0 \sum_q coef R tabb p q t t0 * (h p q * v s t0 c)).
  apply: eq_bigr => p _; rewrite exchange_big /=; apply: eq_bigr => q _; rewrite mulr_sumr.
  by apply: eq_bigr => t0 _; rewrite mulrCA.
by rewrite exchange_big /=; apply: eq_bigr => t0 _; rewrite (links _ (fun a i => h a i * v s t0 c)).
Qed.
Lemma eb_ok Heb (v : civec) s t c : contract_eb nb taba tabb Heb v s t c =
  \sum_k (cre_boson nb (one_body taba tabb (Heb k) v) k s t c + des_boson nb (one_body taba tabb (Heb k) v) k s t c).
Proof.
rewrite /contract_eb; apply: eq_bigr => k _; rewrite /cre_boson /des_boson -big_split /=; apply: eq_bigr => ip _.
have A (x : R) (P : bool) c' : (if P then x * one_body taba tabb (Heb k) v s t c' else 0) =
    \sum_s0 \sum_(l <- taba s0 | lto l == s) (if P then Heb k (la l) (li l) * x * lsign R l * v s0 t c' else 0)
  + \sum_t0 \sum_(l <- tabb t0 | lto l == t) (if P then Heb k (la l) (li l) * x * lsign R l * v s t0 c' else 0).
  case: P; last by rewrite !big1 ?addr0 // => ? _; rewrite big1.
  rewrite one_body_links mulrDr !mulr_sumr; congr (_ + _); apply: eq_bigr => s0 _; rewrite mulr_sumr; apply: eq_bigr => l _.
    by rewrite !mulrA; congr (_ * _); rewrite mulrC !mulrA.
  by rewrite !mulrA; congr (_ * _); rewrite mulrC !mulrA.
rewrite !A addrACA; congr (_ + _); rewrite -big_split /=; apply: eq_bigr => x _; by rewrite -big_split.
Qed.

(** * Scalar products *)
Notation dot := (@dot R na nbt m D nb).
Notation same := (@same R na nbt m D nb).
Lemma eq_dot (u u' v v' : civec) : same u u' -> same v v' -> dot u v = dot u' v'.
Proof. by move=> h h'; apply: eq_bigr => s _; apply: eq_bigr => t _; apply: eq_bigr => c hc; rewrite h // h'. Qed.
Lemma dotC (u v : civec) : dot u v = dot v u.
Proof. by apply: eq_bigr => s _; apply: eq_bigr => t _; apply: eq_bigr => c hc; rewrite mulrC. Qed.
Lemma dot_sumr (I : finType) (x : I -> R) (V : I -> civec) u :
  dot u (fun s t c => \sum_j x j * V j s t c) = \sum_j x j * dot u (V j).
Proof.
under [RHS]eq_bigr => j _ do rewrite /FciSpec.dot mulr_sumr.
rewrite [RHS]exchange_big /=; apply: eq_bigr => s _.
under [RHS]eq_bigr => j _ do rewrite mulr_sumr.
rewrite [RHS]exchange_big /=; apply: eq_bigr => t _.
under [RHS]eq_bigr => j _ do rewrite mulr_sumr.
rewrite [RHS]exchange_big /=; apply: eq_bigr => c _.
by rewrite mulr_sumr; apply: eq_bigr => j _; rewrite mulrCA.
Qed.
Lemma dot_addr (u v w : civec) : dot u (fun s t c => v s t c + w s t c) = dot u v + dot u w.
Proof.
rewrite /FciSpec.dot -big_split /=; apply: eq_bigr => s _; rewrite -big_split /=; apply: eq_bigr => t _.
by rewrite -big_split /=; apply: eq_bigr => c _; rewrite mulrDr.
Qed.
Lemma dot_addl (u v w : civec) : dot (fun s t c => v s t c + w s t c) u = dot v u + dot w u.
Proof. by rewrite dotC dot_addr !(dotC u). Qed.
Lemma dot_suml (I : finType) (x : I -> R) (V : I -> civec) u :
  dot (fun s t c => \sum_j x j * V j s t c) u = \sum_j x j * dot (V j) u.
Proof. by rewrite dotC dot_sumr; apply: eq_bigr => j _; rewrite dotC. Qed.

Section Adjoint.
Hypotheses (adja : adjoint_table R taba) (adjb : adjoint_table R tabb).
Lemma dot_E a i (u v : civec) : dot u (E a i v) = dot (E i a u) v.
Proof.
transitivity (\sum_s \sum_t \sum_(c | inside nb c) \sum_s0 u s t c * (coef R taba a i s s0 * v s0 t c)
   + \sum_s \sum_t \sum_(c | inside nb c) \sum_t0 u s t c * (coef R tabb a i t t0 * v s t0 c)).
  rewrite -big_split /=; apply: eq_bigr => s _; rewrite -big_split /=; apply: eq_bigr => t _.
  by rewrite -big_split /=; apply: eq_bigr => c _; rewrite /Eop mulrDr !mulr_sumr.
transitivity (\sum_s \sum_t \sum_(c | inside nb c) \sum_s0 (coef R taba i a s s0 * u s0 t c) * v s t c
   + \sum_s \sum_t \sum_(c | inside nb c) \sum_t0 (coef R tabb i a t t0 * u s t0 c) * v s t c); last first.
  rewrite -big_split /=; apply: eq_bigr => s _; rewrite -big_split /=; apply: eq_bigr => t _.
  by rewrite -big_split /=; apply: eq_bigr => c _; rewrite /Eop mulrDl !mulr_suml.
congr (_ + _).
  rewrite exchange_big [RHS]exchange_big /=; apply: eq_bigr => t _.
  rewrite exchange_big [RHS]exchange_big /=; apply: eq_bigr => c _.
  rewrite exchange_big /=; apply: eq_bigr => s _; apply: eq_bigr => s0 _.
  by rewrite adja mulrA [u _ _ _ * _]mulrC.
apply: eq_bigr => s _; rewrite exchange_big [RHS]exchange_big /=; apply: eq_bigr => c _.
rewrite exchange_big /=; apply: eq_bigr => t _; apply: eq_bigr => t0 _.
by rewrite adjb mulrA [u _ _ _ * _]mulrC.
Qed.
Lemma dot_one_body h (u v : civec) : (forall p q, h p q = h q p) ->
  dot u (one_body taba tabb h v) = dot (one_body taba tabb h u) v.
Proof.
move=> hs.
have A (z : civec) : same (one_body taba tabb h z) (fun s t c => \sum_(pq : 'I_norb * 'I_norb) h pq.1 pq.2 * E pq.1 pq.2 z s t c).
  by move=> s t c _; rewrite /one_body pair_bigA.
rewrite (eq_dot (fun _ _ _ _ => erefl) (A v)) (eq_dot (A u) (fun _ _ _ _ => erefl)) dot_sumr dot_suml.
rewrite -!(pair_bigA _ (fun p q => h p q * dot _ (E p q _))) -!(pair_bigA _ (fun p q => h p q * dot (E p q _) _)) /=.
rewrite exchange_big /=; apply: eq_bigr => p _; apply: eq_bigr => q _; by rewrite dot_E hs.
Qed.
Lemma dot_2e eri (u v : civec) : eri_symmetric eri ->
  dot u (contract_2e taba tabb eri v) = dot (contract_2e taba tabb eri u) v.
Proof.
move=> hs.
pose I := (('I_norb * 'I_norb) * ('I_norb * 'I_norb))%type.
pose X (j : I) := eri j.1.1 j.1.2 j.2.1 j.2.2.
pose V (z : civec) (j : I) := E j.1.1 j.1.2 (E j.2.1 j.2.2 z).
have A (z : civec) : same (contract_2e taba tabb eri z) (fun s t c => \sum_j X j * V z j s t c).
  move=> s t c _; rewrite contract_2e_E -(pair_bigA _ (fun p q => X (p, q) * V z (p, q) s t c)) /=.
  rewrite -(pair_bigA _ (fun a i => \sum_q X ((a, i), q) * V z ((a, i), q) s t c)) /=.
  apply: eq_bigr => a _; apply: eq_bigr => i _.
  by rewrite -(pair_bigA _ (fun b j => X ((a, i), (b, j)) * V z ((a, i), (b, j)) s t c)).
rewrite (eq_dot (fun _ _ _ _ => erefl) (A v)) (eq_dot (A u) (fun _ _ _ _ => erefl)) dot_sumr dot_suml.
rewrite (reindex_inj (h := fun j : I => ((j.2.2, j.2.1), (j.1.2, j.1.1)))); last first.
  by move=> [[a i] [b j]] [[a' i'] [b' j']] [-> -> -> ->].
by apply: eq_bigr => -[[a i] [b j]] _; rewrite /X /V /= !dot_E -hs.
Qed.
Hypothesis nbD : forall k, (nb k <= D)%N.
Lemma one_body_cre h (v : civec) k : same (one_body taba tabb h (cre_boson nb v k)) (cre_boson nb (one_body taba tabb h v) k).
Proof.
move=> s t c /forallP /(_ k) hc; rewrite creE // !one_body_links.
under eq_bigr => s0 _ do under eq_bigr => l _ do rewrite creE //.
under [X in _ + X = _]eq_bigr => s0 _ do under eq_bigr => l _ do rewrite creE //.
case: ifP => h0; last by rewrite !big1 ?addr0 // => s0 _; rewrite big1 // => l _; rewrite !mulr0.
rewrite mulrDr; congr (_ + _); rewrite mulr_sumr; apply: eq_bigr => s0 _; rewrite mulr_sumr; apply: eq_bigr => l _;
 by rewrite !mulrA; congr (_ * _); rewrite [LHS]mulrC !mulrA.
Qed.
Lemma one_body_des h (v : civec) k : same (one_body taba tabb h (des_boson nb v k)) (des_boson nb (one_body taba tabb h v) k).
Proof.
move=> s t c /forallP /(_ k) hc; rewrite desE // !one_body_links.
under eq_bigr => s0 _ do under eq_bigr => l _ do rewrite desE //.
under [X in _ + X = _]eq_bigr => s0 _ do under eq_bigr => l _ do rewrite desE //.
case: ifP => h0; last by rewrite !big1 ?addr0 // => s0 _; rewrite big1 // => l _; rewrite !mulr0.
rewrite mulrDr; congr (_ + _); rewrite mulr_sumr; apply: eq_bigr => s0 _; rewrite mulr_sumr; apply: eq_bigr => l _;
 by rewrite !mulrA; congr (_ * _); rewrite [LHS]mulrC !mulrA.
Qed.
Lemma dot_eb Heb (u v : civec) : (forall k p q, Heb k p q = Heb k q p) ->
  dot u (contract_eb nb taba tabb Heb v) = dot (contract_eb nb taba tabb Heb u) v.
Proof.
move=> hs.
pose V (z : civec) k : civec := fun s t c =>
  cre_boson nb (one_body taba tabb (Heb k) z) k s t c + des_boson nb (one_body taba tabb (Heb k) z) k s t c.
have A (z : civec) : same (contract_eb nb taba tabb Heb z) (fun s t c => \sum_k 1 * V z k s t c).
  by move=> s t c _; rewrite eb_ok; apply: eq_bigr => k _; rewrite mul1r.
rewrite (eq_dot (fun _ _ _ _ => erefl) (A v)) (eq_dot (A u) (fun _ _ _ _ => erefl)) dot_sumr dot_suml.
apply: eq_bigr => k _; rewrite !mul1r /V dot_addr dot_addl addrC; congr (_ + _).
  rewrite dot_des // dot_one_body //; apply: eq_dot => //; exact: one_body_cre.
rewrite dot_cre // dot_one_body //; apply: eq_dot => //; exact: one_body_des.
Qed.
Lemma hop_symmetric h eri N Heb w (u v : civec) :
  (forall p q, h p q = h q p) -> eri_symmetric eri -> (forall k p q, Heb k p q = Heb k q p) ->
  dot u (hop nb taba tabb h eri N Heb w v) = dot (hop nb taba tabb h eri N Heb w u) v.
Proof.
move=> hh he hb; rewrite /hop 2!dot_addr 2!dot_addl; congr (_ + _ + _).
- apply: dot_2e => p q r x; rewrite /absorb_h1e he; congr (_ * _); rewrite -!addrA; congr (_ + _).
  have F j k : (h j k - (\sum_i eri j i i k) / 2%:R) / N%:R = (h k j - (\sum_i eri k i i j) / 2%:R) / N%:R.
    by rewrite hh; congr ((_ - _ / _) / _); apply: eq_bigr => i _; rewrite he.
  by rewrite addrC [x == r]eq_sym [q == p]eq_sym (F r x) (F p q).
- exact: dot_eb.
- rewrite (eq_dot (v' := fun s t c => boson_energy w c * v s t c) (u' := u)) //; last by move=> s t c hc; rewrite bb_ok.
  rewrite [RHS](eq_dot (u' := fun s t c => boson_energy w c * u s t c) (v' := v)) //; last by move=> s t c hc; rewrite bb_ok.
  by apply: eq_bigr => s _; apply: eq_bigr => t _; apply: eq_bigr => c _; rewrite mulrA [u _ _ _ * _]mulrC.
Qed.
End Adjoint.

(** * One-particle density matrix *)
Lemma rdm_ok (v : civec) a i : make_rdm1e nb taba tabb v a i = dot v (E a i v).
Proof.
rewrite /make_rdm1e.
transitivity ((\sum_s \sum_t \sum_(c | inside nb c) \sum_s0 v s t c * (coef R taba a i s s0 * v s0 t c))
   + \sum_s \sum_t \sum_(c | inside nb c) \sum_t0 v s t c * (coef R tabb a i t t0 * v s t0 c)); last first.
  rewrite -big_split /=; apply: eq_bigr => s _; rewrite -big_split /=; apply: eq_bigr => t _.
  by rewrite -big_split /=; apply: eq_bigr => c _; rewrite /Eop mulrDr !mulr_sumr.
have B ns (tab : 'I_ns -> seq (link norb ns)) (W : 'I_ns -> 'I_ns -> R) s0 :
   \sum_(l <- tab s0 | (la l == a) && (li l == i)) lsign R l * W (lto l) s0 = \sum_s coef R tab a i s s0 * W s s0.
  rewrite (partition_big (fun l => lto l) xpredT) //=; apply: eq_bigr => s _; rewrite /coef mulr_suml.
  by apply: eq_bigr => l /andP [_ /eqP ->].
congr (_ + _).
  transitivity (\sum_s0 \sum_s coef R taba a i s s0 * \sum_t \sum_(c | inside nb c) v s t c * v s0 t c).
    by apply: eq_bigr => s0 _; rewrite (B _ _ (fun s s0 => \sum_t \sum_(c | inside nb c) v s t c * v s0 t c)).
  rewrite exchange_big /=; apply: eq_bigr => s _.
  transitivity (\sum_s0 \sum_t \sum_(c | inside nb c) v s t c * (coef R taba a i s s0 * v s0 t c)).
    apply: eq_bigr => s0 _; rewrite mulr_sumr; apply: eq_bigr => t _; rewrite mulr_sumr; apply: eq_bigr => c _; by rewrite mulrCA.
  by rewrite exchange_big /=; apply: eq_bigr => t _; rewrite exchange_big.
transitivity (\sum_t0 \sum_t coef R tabb a i t t0 * \sum_s \sum_(c | inside nb c) v s t c * v s t0 c).
  by apply: eq_bigr => t0 _; rewrite (B _ _ (fun t t0 => \sum_s \sum_(c | inside nb c) v s t c * v s t0 c)).
rewrite exchange_big /= [RHS]exchange_big /=; apply: eq_bigr => t _.
transitivity (\sum_t0 \sum_s \sum_(c | inside nb c) v s t c * (coef R tabb a i t t0 * v s t0 c)).
  apply: eq_bigr => t0 _; rewrite mulr_sumr; apply: eq_bigr => s _; rewrite mulr_sumr; apply: eq_bigr => c _; by rewrite mulrCA.
by rewrite exchange_big /=; apply: eq_bigr => s _; rewrite exchange_big.
Qed.
Lemma rdm_symmetric (v : civec) a i : adjoint_table R taba -> adjoint_table R tabb ->
  make_rdm1e nb taba tabb v a i = make_rdm1e nb taba tabb v i a.
Proof. by move=> ha hb; rewrite !rdm_ok dot_E // dotC. Qed.
Lemma rdm_trace (v : civec) Na Nb : number_table R taba Na -> number_table R tabb Nb ->
  \sum_a make_rdm1e nb taba tabb v a a = (Na + Nb)%:R * dot v v.
Proof.
move=> ha hb.
transitivity (\sum_a 1 * dot v (E a a v)); first by apply: eq_bigr => a _; rewrite rdm_ok mul1r.
rewrite -dot_sumr (eq_dot (u' := v) (v' := fun s t c => \sum_(j : 'I_1) (Na + Nb)%:R * v s t c)) //.
  by rewrite (dot_sumr (fun _ : 'I_1 => (Na + Nb)%:R) (fun _ => v)) big_ord1.
move=> s t c _; rewrite big_ord1 -(E_number ha hb); apply: eq_bigr => a _; by rewrite mul1r.
Qed.
Lemma rdm_energy (v : civec) h : \sum_a \sum_i h a i * make_rdm1e nb taba tabb v a i = dot v (one_body taba tabb h v).
Proof.
rewrite (eq_dot (u' := v) (v' := fun s t c => \sum_(pq : 'I_norb * 'I_norb) h pq.1 pq.2 * E pq.1 pq.2 v s t c)) //.
  rewrite dot_sumr -(pair_bigA _ (fun p q => h p q * dot v (E p q v))) /=.
  by apply: eq_bigr => a _; apply: eq_bigr => i _; rewrite rdm_ok.
by move=> s t c _; rewrite /one_body pair_bigA.
Qed.

Lemma t1_12_E (v : civec) i a s t c : adjoint_table R taba -> adjoint_table R tabb ->
  t1_12 taba tabb v i a s t c = E i a v s t c.
Proof.
move=> ha hb; rewrite /t1_12 /Eop.
have B ns (tab : 'I_ns -> seq (link norb ns)) (W : 'I_ns -> R) s0 :
   \sum_(l <- tab s0 | (la l == a) && (li l == i)) lsign R l * W (lto l) = \sum_s coef R tab a i s s0 * W s.
  rewrite (partition_big (fun l => lto l) xpredT) //=; apply: eq_bigr => s' _; rewrite /coef mulr_suml.
  by apply: eq_bigr => l /andP [_ /eqP ->].
rewrite (B _ _ (fun s' => v s' t c)) (B _ _ (fun t' => v s t' c)); congr (_ + _); apply: eq_bigr => x _.
  by rewrite ha.
by rewrite hb.
Qed.
Lemma rdm1_12_ok (v : civec) i j : adjoint_table R taba -> adjoint_table R tabb ->
  rdm1_12 nb taba tabb v i j = make_rdm1e nb taba tabb v i j.
Proof.
move=> ha hb; rewrite rdm_ok; apply: eq_bigr => s _; apply: eq_bigr => t _; apply: eq_bigr => c _.
by rewrite t1_12_E.
Qed.
Lemma rdm2_raw_ok (v : civec) p q r x : adjoint_table R taba -> adjoint_table R tabb ->
  rdm2_raw nb taba tabb v p q r x = dot v (E p q (E r x v)).
Proof.
move=> ha hb; rewrite dot_E //; apply: eq_bigr => s _; apply: eq_bigr => t _; apply: eq_bigr => c _.
by rewrite !t1_12_E.
Qed.
Lemma rdm2_cut_ok (v : civec) p q r x : adjoint_table R taba -> adjoint_table R tabb ->
  rdm2_cut nb taba tabb v p q r x = dot v (fun s t c => E p q (E r x v) s t c - (if q == r then E p x v s t c else 0)).
Proof.
move=> ha hb; rewrite /rdm2_cut rdm2_raw_ok // rdm1_12_ok // rdm_symmetric // rdm_ok.
pose Z0 : civec := fun s t c => - (if q == r then E p x v s t c else 0).
rewrite (dot_addr v _ Z0); congr (_ + _); rewrite /Z0; case: eqP => _.
  rewrite -mulN1r [RHS](eq_dot (u' := v) (v' := fun s t c => \sum_(j : 'I_1) (-1) * E p x v s t c)) //.
    rewrite (dot_sumr (fun _ : 'I_1 => -1) (fun _ => E p x v)) big_ord1 //.
  by move=> s t c _; rewrite big_ord1 mulN1r.
by rewrite oppr0 /FciSpec.dot big1 // => s _; rewrite big1 // => t _; rewrite big1 // => c _; rewrite mulr0.
Qed.
Lemma rdm2_energy (v : civec) eri : adjoint_table R taba -> adjoint_table R tabb ->
  (forall p q r x, eri p q r x = eri r x p q) ->
  (\sum_p \sum_q \sum_r \sum_x eri p q r x * rdm2_12 nb taba tabb v p q r x) / 2%:R = dot v (two_body taba tabb eri v).
Proof.
move=> ha hb hs; have two0 : (2%:R : R) != 0 by rewrite pnatr_eq0.
pose I := (('I_norb * 'I_norb) * ('I_norb * 'I_norb))%type.
pose X (j : I) := eri j.1.1 j.1.2 j.2.1 j.2.2.
pose C (j : I) := rdm2_cut nb taba tabb v j.1.1 j.1.2 j.2.1 j.2.2.
pose sw (j : I) : I := (j.2, j.1).
have flat (f : I -> R) : \sum_p \sum_q \sum_r \sum_x f ((p, q), (r, x)) = \sum_j f j.
  rewrite [RHS](eq_bigr (fun j => f ((j.1.1, j.1.2), (j.2.1, j.2.2)))); last by case=> -[a i] [b j] _.
  rewrite -(pair_bigA _ (fun u w => f ((u.1, u.2), (w.1, w.2)))) /= -(pair_bigA _ (fun a b => \sum_w f ((a, b), (w.1, w.2)))) /=.
  by apply: eq_bigr => a _; apply: eq_bigr => i _; rewrite -(pair_bigA _ (fun b j => f ((a, i), (b, j)))).
rewrite (flat (fun j => X j * ((C j + C (sw j)) / 2%:R))).
have -> : \sum_j X j * ((C j + C (sw j)) / 2%:R) = \sum_j X j * C j.
  under eq_bigr => j _ do rewrite mulrA mulrDr.
  rewrite -mulr_suml big_split /= [X in _ + X](reindex_inj (h := sw)); last by move=> [u w] [u' w'] [-> ->].
  have -> : \sum_j X (sw j) * C (sw (sw j)) = \sum_j X j * C j.
    by apply: eq_bigr => -[[a i] [b j]] _; rewrite /X /C /= -hs.
  by rewrite -mulr2n -mulr_natr mulfK.
pose V (j : I) : civec := fun s t c => E j.1.1 j.1.2 (E j.2.1 j.2.2 v) s t c - (if j.1.2 == j.2.1 then E j.1.1 j.2.2 v s t c else 0).
rewrite (eq_dot (u' := v) (v' := fun s t c => \sum_j (X j / 2%:R) * V j s t c)) //.
  rewrite dot_sumr mulr_suml; apply: eq_bigr => j _; by rewrite /C rdm2_cut_ok // mulrAC.
move=> s t c _; rewrite /two_body (flat (fun j => X j * V j s t c)) mulr_suml; apply: eq_bigr => j _; by rewrite mulrAC.
Qed.
End Elec.

(** * The tables for one electron *)
Section OneElectron.
Variables (R : rcfType) (norb : nat).
Definition tab1 (s0 : 'I_norb) : seq (link norb norb) := [seq (a, s0, a, 1%:Z) | a <- enum 'I_norb].
Lemma coef_tab1 a i s1 s0 : coef R tab1 a i s1 s0 = ((i == s0) && (a == s1))%:R.
Proof.
rewrite /coef /tab1 big_map big_enum_cond /=.
rewrite (eq_bigl (fun x => (x == a) && ((i == s0) && (a == s1)))).
  by case: (_ && (a == s1)); [rewrite (big_pred1 a) // => x; rewrite andbT | rewrite big_pred0 // => x; rewrite andbF].
by move=> x; rewrite /la /li /lto /= [s0 == i]eq_sym; case: (x =P a) => [->|]; rewrite ?andbF.
Qed.
Lemma adjoint_tab1 : adjoint_table R tab1.
Proof. by move=> a i s1 s0; rewrite !coef_tab1 andbC. Qed.
Lemma number_tab1 : number_table R tab1 1.
Proof.
move=> s1 s0; rewrite (bigD1 s0) //= coef_tab1 eqxx /= eq_sym big1 ?addr0 => [|a ha].
  by case: eqP.
by rewrite coef_tab1 (negbTE ha).
Qed.
End OneElectron.

(** * Kernel branches and the diagonal *)
Import Order.TTheory.
Lemma kernel_two_modes (R : rcfType) (na nbt D norb n : nat)
   (taba : 'I_na -> seq (link norb na)) (tabb : 'I_nbt -> seq (link norb nbt)) h1e eri nelec Heb w (v : civec R na nbt 2 D) :
  n != 0%N -> n != 1%N ->
  kernel_hop (fun _ => n) taba tabb h1e eri nelec Heb w v = Base.Err Base.ValueError.
Proof.
move=> h0 h1; have [j hj _] := last_other_some (@ord_max 1).
by apply: (kernel_raises _ _ _ _ _ _ _ _ hj).
Qed.
Lemma kernel_plain na nb nmode l : nmode = size l -> (0 < nmode)%N ->
  kernel_start na nb nmode (Some (BList l)) false false =
  Base.Ok (Solve (na :: nb :: [seq BinInt.Z.succ x | x <- l])).
Proof. by move=> e h; rewrite /kernel_start /= e eqxx /= -e h. Qed.
Lemma kernel_coherent na nb nmode b : kernel_start na nb nmode b false true = Base.Err Base.NameError.
Proof. by []. Qed.
Lemma kernel_int na nb nmode n : (0 < nmode)%N ->
  (exists sh, ci_shape na nb nmode (Some (BInt n)) = Base.Ok sh) /\
  kernel_start na nb nmode (Some (BInt n)) false false = Base.Err Base.TypeError.
Proof. by move=> h; split; [eexists | rewrite /kernel_start /= h]. Qed.
Lemma hdiag_high (R : rcfType) (m D : nat) (w : 'I_m -> R) (c : cfg m D) :
  (forall k, 1 / 2%:R <= (c k)%:R * w k) -> hdiag_boson w c = boson_energy w c.
Proof. by move=> h; apply: eq_bigr => k _; rewrite max_l // mulrC. Qed.
Lemma hdiag_vacuum (R : rcfType) (m D : nat) (w : 'I_m -> R) (c : cfg m D) :
  (forall k, c k = 0%N :> nat) -> boson_energy w c = 0 /\ hdiag_boson w c = m%:R / 2%:R.
Proof.
move=> h; split; first by rewrite /boson_energy big1 // => k _; rewrite h mulr0.
rewrite /hdiag_boson (eq_bigr (fun _ => 1 / 2%:R)).
  by rewrite sumr_const card_ord -mulr_natl mul1r.
by move=> k _; rewrite h mul0r max_r // mul1r invr_ge0 ler0n.
Qed.
