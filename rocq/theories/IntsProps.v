(** Properties of integral input and bookkeeping: C23, C24, C67, C68, C106, C107. *)
From Coq Require Import String Sorted.
From Verif Require Import Base BaseProofs IntsModel IntsSpec IntsProofs.
Open Scope nat_scope.

(** C23. The eightfold symmetry does not hold after reading: bra and ket are not
    exchanged. *)
Theorem C23_eightfold_refuted : exists norb l h e n, read_fcidump norb l = Ok (h, e, n) /\
  (forall x, In x l -> well_indexed norb x) /\
  exists p q r s, p < norb /\ q < norb /\ r < norb /\ s < norb /\ ~ (e p q r s == e r s p q)%Q.
Proof. exact eight_bad. Qed.
Print Assumptions C23_eightfold_refuted.
(** The fourfold symmetry and that of h1e always hold. *)
Theorem C23_fourfold_partial : forall norb l h e n, read_fcidump norb l = Ok (h, e, n) ->
  (forall p q, h p q = h q p) /\
  (forall p q r s, e p q r s = e q p r s /\ e p q r s = e p q s r /\ e p q r s = e q p s r).
Proof. exact fcidump_fourfold. Qed.
Print Assumptions C23_fourfold_partial.
(** The eightfold one holds for a consistent file that lists both orders. *)
Theorem C23_both_orders_partial : forall norb l h e n,
  (forall x, In x l -> well_indexed norb x) ->
  (forall x, In x l -> fr x <> 0 -> exists y, In y l /\ swapped x y) ->
  (forall p q r s x y, In x l -> In y l ->
     gives_eri p q r s x = true -> gives_eri p q r s y = true -> fv x = fv y) ->
  read_fcidump norb l = Ok (h, e, n) ->
  forall p q r s, e p q r s = e r s p q.
Proof. exact fcidump_eightfold. Qed.
Print Assumptions C23_both_orders_partial.

(** C107. Every element is the value of the last record that gives it, zero
    without one, and the constant is that of the last constant record; without
    one the function fails. *)
Theorem C107_values_partial : forall norb l, (forall x, In x l -> well_indexed norb x) ->
  forall c, last_value gives_nuc l = Some c ->
  exists h e, read_fcidump norb l = Ok (h, e, c) /\
    (forall p q, h p q = or_zero (last_value (gives_h1e p q) l)) /\
    (forall p q r s, e p q r s = or_zero (last_value (gives_eri p q r s) l)).
Proof. exact fcidump_values_some. Qed.
Print Assumptions C107_values_partial.
Theorem C107_no_constant_refuted : exists norb l, (forall x, In x l -> well_indexed norb x) /\
  read_fcidump norb l = Err UnboundLocalError.
Proof. exact fcidump_no_constant. Qed.
Print Assumptions C107_no_constant_refuted.
Theorem C107_no_constant_partial : forall norb l, (forall x, In x l -> well_indexed norb x) ->
  last_value gives_nuc l = None -> read_fcidump norb l = Err UnboundLocalError.
Proof. exact fcidump_values_none. Qed.
Print Assumptions C107_no_constant_partial.
Example C107_ex : exists h e, read_fcidump 2 [Fci (1#2) 2 1 1 1; Fci 3 2 1 0 0; Fci (7#1) 0 0 0 0] = Ok (h, e, 7#1)
  /\ h 0 1 = 3%Q /\ e 0 1 0 0 = (1#2)%Q /\ e 1 1 1 1 = 0%Q.
Proof. do 2 eexists. split; [reflexivity|]. repeat split. Qed.
Example C107_no_constant_ex : read_fcidump 1 [Fci 3 1 1 0 0] = Err UnboundLocalError
  /\ last_value gives_nuc [Fci 3 1 1 0 0] = None.
Proof. split; reflexivity. Qed.

(** C24. For ascending offsets from zero, the shells found for two AO indices are
    the unique ones containing them. *)
Theorem C24_find_shell : forall a j l, ascending a -> nth 0 a 1 = 0 -> j < last a 0 -> l < last a 0 ->
  exists sj sl, find_shell a j l = (Z.of_nat sj, Z.of_nat sl) /\ contains a sj j /\ contains a sl l /\
    (forall k, contains a k j -> k = sj) /\ (forall k, contains a k l -> k = sl).
Proof. exact find_shell_ok. Qed.
Print Assumptions C24_find_shell.
(** The offsets built from the basis are such a list, with the right sizes. *)
Theorem C24_offsets : forall sh, (forall x, In x sh -> 0 < snd x) ->
  ascending (indices4bas sh) /\ List.length (indices4bas sh) = S (List.length sh) /\
  forall k, k <= List.length sh -> nth k (indices4bas sh) 0 = total (map shell_size (firstn k sh)).
Proof. exact indices4bas_ok. Qed.
Print Assumptions C24_offsets.
Example C24_ex : indices4bas [(0, 2); (1, 1)] = [0; 2; 5]
  /\ find_shell [0; 2; 5] 1 2 = (0, 1)%Z /\ contains [0; 2; 5] 0 1 /\ contains [0; 2; 5] 1 2.
Proof. repeat split; cbn; lia. Qed.

(** C67. With the annihilated orbitals taken from the reference and the created
    ones from the target, the sign is not that of the reordering: the orbitals
    are looked up in the other determinant and the result is 1. *)
Theorem C67_sign_refuted : exists anh cre ref target,
  ascending ref /\ ascending target /\ ascending anh /\ ascending cre /\
  (forall x, In x anh <-> In x ref /\ ~ In x target) /\ (forall x, In x cre <-> In x target /\ ~ In x ref) /\
  sign_of (to_front anh ref) = 1%Z /\ sign_of (to_front cre target) = (-1)%Z /\
  permutation_sign anh cre ref target = Ok 1%Z.
Proof. exact permutation_sign_bad. Qed.
Print Assumptions C67_sign_refuted.
(** With the roles exchanged and both lists ascending it is the product of the
    parities of moving them to the front. *)
Theorem C67_exchanged_partial : forall anh cre ref target,
  ascending ref -> ascending target -> ascending anh -> ascending cre ->
  incl anh target -> incl cre ref ->
  permutation_sign anh cre ref target = Ok (sign_of (to_front anh target) * sign_of (to_front cre ref))%Z.
Proof. exact permutation_sign_ok. Qed.
Print Assumptions C67_exchanged_partial.
Example C67_ex : permutation_sign [2] [0] [0; 1] [1; 2] = Ok (-1)%Z
  /\ to_front [2] [1; 2] = [2; 1] /\ to_front [0] [0; 1] = [0; 1].
Proof. repeat split. Qed.

(** C106. Extending active-space determinants by the frozen core gives
    determinants of all electrons.  Not for unequal cores: the core of the
    alpha electrons is put into the beta determinants. *)
Theorem C106_unequal_refuted : exists na nb occa occb oa ob,
  (forall o, In o occa -> List.length o <= na /\ NoDup o) /\ (forall o, In o occb -> List.length o <= nb /\ NoDup o) /\
  extend_core na nb occa occb = Ok (oa, ob) /\
  exists o, In o ob /\ List.length o <> nb /\ ~ NoDup o.
Proof. exact extend_core_bad. Qed.
Print Assumptions C106_unequal_refuted.
Theorem C106_equal_partial : forall na nb occa occb oa ob,
  extend_core na nb occa occb = Ok (oa, ob) ->
  (forall o, In o occa -> List.length o = List.length (nth 0 occa [])) ->
  (forall o, In o occb -> List.length o = List.length (nth 0 occb [])) ->
  (forall o, In o occa \/ In o occb -> NoDup o) ->
  na - List.length (nth 0 occa []) = nb - List.length (nth 0 occb []) ->
  (forall o, In o oa -> List.length o = na /\ NoDup o) /\
  (forall o, In o ob -> List.length o = nb /\ NoDup o) /\
  List.length oa = List.length occa /\ List.length ob = List.length occb.
Proof. exact extend_core_ok. Qed.
Print Assumptions C106_equal_partial.
Example C106_ex : extend_core 3 2 [[0; 1]; [0; 2]] [[0]; [1]] = Ok ([[0; 1; 2]; [0; 1; 3]], [[0; 1]; [0; 2]]).
Proof. reflexivity. Qed.

(** C68. The sixteen blocks have the right sizes and elements, each element of
    the tensor lies in exactly one of them, and stacking two matrices keeps both
    and zeros elsewhere. *)
Theorem C68_blocks : forall V (t : tens V) n1o n1v n2o n2v n3o n3v n4o n4v bs,
  make_two_e_blocks_full t n1o n1v n2o n2v n3o n3v n4o n4v = Ok bs ->
  List.length bs = 16 /\
  forall a b c d, exists blk, In (name a b c d, blk) bs /\
    (forall blk', In (name a b c d, blk') bs -> blk' = blk) /\
    td blk = (half n1o n1v a, half n2o n2v b, half n3o n3v c, half n4o n4v d) /\
    forall i j k l, te blk i j k l = te t (start n1o a + i) (start n2o b + j) (start n3o c + k) (start n4o d + l).
Proof. exact @blocks_ok. Qed.
Print Assumptions C68_blocks.
Theorem C68_cover : forall n1o n1v n2o n2v n3o n3v n4o n4v i j k l,
  i < n1o + n1v -> j < n2o + n2v -> k < n3o + n3v -> l < n4o + n4v ->
  exists! p : (bool * nat) * (bool * nat) * (bool * nat) * (bool * nat),
    let '(pi, pj, pk, pl) := p in
    at_axis n1o n1v i pi /\ at_axis n2o n2v j pj /\ at_axis n3o n3v k pk /\ at_axis n4o n4v l pl.
Proof. exact blocks_cover. Qed.
Print Assumptions C68_cover.
Theorem C68_block_diag : forall V (z : V) A B, exists M, block_diag z A B = Ok M /\
  mr M = mr A + mr B /\ mc M = mc A + mc B /\
  (forall i j, i < mr A -> j < mc A -> me M i j = me A i j) /\
  (forall i j, i < mr B -> j < mc B -> me M (mr A + i) (mc A + j) = me B i j) /\
  (forall i j, i < mr A -> me M i (mc A + j) = z) /\
  (forall i j, j < mc A -> me M (mr A + i) j = z).
Proof. exact @block_diag_ok. Qed.
Print Assumptions C68_block_diag.
Example C68_ex : exists bs, make_two_e_blocks_full (Tens (2, 2, 2, 2) (fun i j k l => i + 2 * j + 4 * k + 8 * l)) 1 1 1 1 1 1 1 1 = Ok bs
  /\ exists b, In ("ovov"%string, b) bs /\ te b 0 0 0 0 = 10.
Proof. eexists; split; [reflexivity|]. eexists; split; [cbn; do 7 right; left; reflexivity|reflexivity]. Qed.
